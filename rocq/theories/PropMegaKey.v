(** Property C64: MEGa keys. *)
From Coq Require Import ZArith Lia Bool String List.
From Verif Require Import Base BaseFacts Zmod Fields ModelScalar ProofScalar ModelXmd ModelRo ProofRand ProofZk ModelPoly ModelGroup GroupFacts ModelCommit ModelZk ModelMega ProofMega
  ModelSecp SpecSecp ProofFp ProofCurve ProofCodec ProofSecp ModelMegaKey PropScalar PropPoint PropSecp.
From Verif Require Toy.
Import ListNotations.
Open Scope Z_scope.

(** C64: the codecs of both keys *)
Theorem C64_key_roundtrips : forall (s : Fq),
  (exists b, sk_serialize (Some s) = Ok b /\ blen b = 32 /\ sk_deserialize 1 b = Ok (Some s)) /\
  (exists b, pk_serialize (sk_public s) = Ok b /\ blen b = 33 /\ pk_deserialize 1 b = Ok (sk_public s)).
Proof.
  intros s. split.
  - destruct (C01_serialize_roundtrip s) as (L & _ & _ & H & _). exists (scalar_serialize s). unfold blen. rewrite L. auto.
  - destruct (C04_serialize_is_sec1 (pt_mul s pt_gen)) as (E & L & _). exists (sec1 (pt_mul s pt_gen)).
    split; [exact E|]. split; [exact L|]. apply (C04_roundtrip _ _); [|exact E].
    apply (C62_scalar_multiplication s s pt_gen pt_gen gen_on_curve gen_on_curve).
Qed.
(** the public key is the generator added to itself as often as the secret says;
    different secrets have different public keys, every point is one, and only
    the secret 0 has the identity *)
Lemma pt_mul_iter (n : nat) : pt_mul (of_Z q (Z.of_nat n)) pt_gen = Nat.iter n (pt_add pt_gen) None.
Proof.
  induction n as [|n IH]; [reflexivity|].
  replace (of_Z q (Z.of_nat (S n))) with (fadd fone (of_Z q (Z.of_nat n))).
  2:{ unfold fone. rewrite <- of_Z_add. f_equal. lia. }
  destruct (C62_scalar_multiplication fone (of_Z q (Z.of_nat n)) pt_gen pt_gen gen_on_curve gen_on_curve) as (_ & -> & _ & _ & ->).
  rewrite IH. reflexivity.
Qed.
Theorem C64_public_key : forall s : Fq,
  (exists a, sk_public s = Some a /\ on_curve a /\ a = Nat.iter (Z.to_nat (fv s)) (pt_add pt_gen) None) /\
  (forall t, sk_public t = sk_public s -> t = s) /\
  (forall a, on_curve a -> exists t, sk_public t = Some a) /\
  (sk_public s = Some None <-> s = fzero).
Proof.
  intros s.
  assert (J : forall t u, sk_public t = sk_public u -> t = u).
  { intros t u E. assert (E' : pt_mul t pt_gen = pt_mul u pt_gen) by (unfold sk_public in E; congruence).
    destruct (C62_cyclic_of_order_q (pt_mul u pt_gen)) as (w & _ & U);
      [apply (C62_scalar_multiplication u u pt_gen pt_gen gen_on_curve gen_on_curve)|].
    rewrite <- (U t E'). apply U. reflexivity. }
  split; [|split; [intros t; apply J|split]].
  - exists (pt_mul s pt_gen). split; [reflexivity|]. split; [apply (C62_scalar_multiplication s s pt_gen pt_gen gen_on_curve gen_on_curve)|].
    rewrite <- pt_mul_iter. f_equal. pose proof (fv_range q s eq_refl). rewrite Z2Nat.id by lia. symmetry. apply of_Z_fv.
  - intros a Ha. destruct (C62_cyclic_of_order_q a Ha) as (t & E & _). exists t. unfold sk_public. now rewrite E.
  - split; [intros E; apply J; rewrite E; reflexivity|intros ->; reflexivity].
Qed.
Print Assumptions C64_public_key.
Example C64_ex_public : exists x y, sk_public (of_Z q 2) = Some (Some (x, y)) /\ pt_add pt_gen (pt_add pt_gen None) = Some (x, y).
Proof.
  destruct (C64_public_key (of_Z q 2)) as ((a & E & _ & I) & _ & _ & Z0). change (Z.to_nat (fv (of_Z q 2))) with 2%nat in I. cbn [Nat.iter nat_rect] in I.
  destruct a as [(x, y)|]; [exists x, y; split; [exact E|symmetry; exact I]|]. apply Z0 in E. apply (f_equal fv) in E. discriminate E.
Qed.
(** exactly these strings are accepted as keys, for each curve number *)
Theorem C64_accepted_keys : forall curve raw,
  verify_mega_public_key curve raw = Ok tt <->
  (curve = 1 /\ (raw = repeat 0 33 \/ blen raw = 33 /\ (hd 0 raw = 2 \/ hd 0 raw = 3))) \/
  (curve <> 1 /\ (raw = [0] \/ raw = [2] \/ raw = [3])).
Proof.
  intros curve raw. unfold verify_mega_public_key, pk_deserialize. destruct (Z.eq_dec curve 1) as [->|N].
  - destruct raw as [|t xb].
    { split; [discriminate|]. intros [(_ & [H|(H & _)])|(H & _)]; [discriminate H|discriminate H|congruence]. }
    cbn [hd]. destruct (Z.eq_dec (blen (t :: xb)) 33) as [L|L].
    2:{ rewrite C05_other_lengths_rejected by exact L. split; [discriminate|]. intros [(_ & [H|(H & _)])|(H & _)]; [|congruence|congruence].
        rewrite H in L. exfalso. apply L. reflexivity. }
    assert (L' : blen xb = 32) by (rewrite blen_cons in L; lia). destruct (C05_decoding t xb L') as (D1 & D2 & D3).
    destruct (Z.eq_dec t 2) as [E2|N2]; [|destruct (Z.eq_dec t 3) as [E3|N3]].
    + destruct (D2 (or_introl E2)) as (r & -> & _). cbn [bind]. split; [intros _; left; split; [reflexivity|right; auto]|reflexivity].
    + destruct (D2 (or_intror E3)) as (r & -> & _). cbn [bind]. split; [intros _; left; split; [reflexivity|right; auto]|reflexivity].
    + destruct (bytes_dec (t :: xb) (repeat 0 33)) as [->|Nz]; [rewrite D3; split; [intros _; left; auto|reflexivity]|]. rewrite D1 by assumption. cbn [bind].
      split; [discriminate|]. intros [(_ & [H|(_ & [H|H])])|(H & _)]; congruence.
  - unfold point_deserialize, point_bytes, point_deserialize_any. rewrite (proj2 (Z.eqb_neq _ _) N). change (1 + (0 + 7) / 8) with 1.
    assert (Q : forall P, P <-> (curve = 1 /\ (raw = repeat 0 33 \/ blen raw = 33 /\ (hd 0 raw = 2 \/ hd 0 raw = 3))) \/ (curve <> 1 /\ P)) by (intros P; intuition).
    rewrite <- Q. clear Q. destruct raw as [|t [|u xb]].
    + split; [discriminate|]. intros [H|[H|H]]; discriminate H.
    + change (blen [t]) with 1. cbn [negb Z.eqb Pos.eqb forallb nth bind andb]. rewrite andb_true_r.
      destruct (Z.eqb_spec t 0); [subst; split; auto|]. destruct (Z.eqb_spec t 2); [subst; split; auto|]. destruct (Z.eqb_spec t 3); [subst; split; auto|].
      cbn [negb andb bind]. split; [discriminate|]. intros [H|[H|H]]; congruence.
    + rewrite !blen_cons. pose proof (blen_nonneg xb). destruct (Z.eqb_spec (1 + (1 + blen xb)) 1); [lia|]. cbn [negb bind].
      split; [discriminate|]. intros [H1|[H1|H1]]; discriminate H1.
Qed.
(** the accepted strings of another curve number stand for no key at all: they
    decode to nil without an error, and using the result panics; under K256
    every accepted key has a point *)
Theorem C64_keys_of_other_curves : forall curve raw,
  (curve <> 1 -> forall k, pk_deserialize curve raw = Ok k -> k = None /\ pk_serialize k = Panic) /\
  (curve <> 1 -> raw <> [] -> sk_deserialize curve raw = Ok None /\ sk_serialize None = Panic) /\
  (forall k, pk_deserialize 1 raw = Ok k -> exists a b, k = Some a /\ pk_serialize k = Ok b /\ blen b = 33) /\
  (forall k, sk_deserialize 1 raw = Ok k -> exists s b, k = Some s /\ sk_serialize k = Ok b /\ blen b = 32).
Proof.
  intros curve raw. split; [|split; [|split]].
  - intros N k. unfold pk_deserialize, point_deserialize, point_deserialize_any. rewrite (proj2 (Z.eqb_neq _ _) N).
    destruct (negb _); [discriminate|]. destruct (forallb _ raw); [intros H; inversion H; split; reflexivity|].
    destruct (_ && _); [discriminate|]. intros H; inversion H; split; reflexivity.
  - intros N Nr. unfold sk_deserialize, scalar_deserialize. rewrite (proj2 (Z.eqb_neq _ _) N). destruct raw; [contradiction|]. split; reflexivity.
  - intros k H. assert (S : exists a, k = Some a).
    { unfold pk_deserialize in H. destruct raw as [|t xb]; [discriminate H|]. destruct (Z.eq_dec (blen (t :: xb)) 33) as [L|L].
      2:{ rewrite C05_other_lengths_rejected in H by exact L. discriminate H. }
      assert (L' : blen xb = 32) by (rewrite blen_cons in L; lia). destruct (C05_decoding t xb L') as (D1 & D2 & D3).
      destruct (Z.eq_dec t 2) as [E2|N2]; [|destruct (Z.eq_dec t 3) as [E3|N3]].
      + destruct (D2 (or_introl E2)) as (r & E & _). rewrite E in H. inversion H. eauto.
      + destruct (D2 (or_intror E3)) as (r & E & _). rewrite E in H. inversion H. eauto.
      + destruct (bytes_dec (t :: xb) (repeat 0 33)) as [Z0|Nz]; [rewrite Z0, D3 in H; inversion H; eauto|]. rewrite D1 in H by assumption. discriminate H. }
    destruct S as [a ->]. destruct (C04_serialize_is_sec1 a) as (E & L & _). exists a, (sec1 a). auto.
  - intros k H. unfold sk_deserialize, scalar_deserialize in H. destruct raw; [discriminate H|]. change (1 =? 1) with true in H. cbv iota in H.
    destruct (k256_deserialize _) as [s| | |]; [|discriminate H..]. cbn [bind] in H. inversion H. exists s, (scalar_serialize s).
    destruct (C01_serialize_roundtrip s) as (L & _). unfold blen. rewrite L. auto.
Qed.
Print Assumptions C64_keys_of_other_curves.
Example C64_ex_other : pk_deserialize 7 [2] = Ok None /\ sk_deserialize 7 [2] = Ok None.
Proof. split; reflexivity. Qed.
(** in particular a key that encodes no point is accepted, as the identity *)
Theorem C64_accepted_keys_are_points_refuted :
  verify_mega_public_key 1 bad_x = Ok tt /\ bytes_ok bad_x /\ pk_deserialize 1 bad_x = Ok (Some None) /\
  forall a, on_curve a -> point_serialize a <> Ok bad_x.
Proof.
  assert (B : bytes_ok bad_x) by (constructor; [split; lia|apply be_bytes_ok]).
  assert (D0 : decompress (be_bytes 32 5) (2 - 2) = None).
  { destruct (decompress_cases (be_bytes 32 5) (2 - 2)) as [(y & _ & E & _)|[D0 _]]; [auto| |exact D0].
    exfalso. apply (five_no_point y). rewrite be_val_be_bytes in E. exact E. }
  assert (D : point_deserialize 1 bad_x = Ok (Some None)).
  { unfold bad_x. rewrite point_deserialize_compressed by (auto using be_bytes_length). rewrite D0. reflexivity. }
  split; [unfold verify_mega_public_key, pk_deserialize; rewrite D; reflexivity|]. split; [exact B|]. split; [exact D|].
  intros a C E. pose proof (C04_roundtrip a bad_x C E) as R. rewrite D in R. assert (a = None) as -> by (inversion R; reflexivity).
  discriminate E.
Qed.
(** and what is encrypted to the identity can be decrypted by everybody: the
    private key zero opens it, single and pair *)
Theorem C64_identity_key_gives_no_secrecy : forall (X : Oracles) (HX : oracles_ok X) (GO : Grp) (GL : GrpLaws GO) seed rc dealer ad i,
  nth_error rc i = Some gzero ->
  (forall pl m v, encrypt_single seed pl rc dealer ad = Ok m -> nth_error pl i = Some v ->
     m_decrypt m ad dealer (Z.of_nat i) fzero gzero = Ok (OSimple v)) /\
  (forall pl m v w, encrypt_pair seed pl rc dealer ad = Ok m -> nth_error pl i = Some (v, w) ->
     m_decrypt m ad dealer (Z.of_nat i) fzero gzero = Ok (OPedersen v w)).
Proof.
  intros X HX GO GL seed rc dealer ad i Hi. assert (E0 : smul fzero genG = gzero) by apply smul_zero. split.
  - intros pl m v E Hv. rewrite <- E0. apply (decrypt_single_honest HX _ _ _ _ _ _ i fzero v E); [rewrite Hi; f_equal; symmetry; exact E0|exact Hv].
  - intros pl m v w E Hv. rewrite <- E0. apply (decrypt_pair_honest HX _ _ _ _ _ _ i fzero (v, w) E); [rewrite Hi; f_equal; symmetry; exact E0|exact Hv].
Qed.
(** GenKeypair: the private key is the first sum (exclusive or) of blocks of the
    seed's key stream that is below the order, the public key is that many times
    the generator, and whatever is encrypted to the one is decrypted by the other *)
Theorem C64_generated_keys : forall (X : Oracles) (HX : oracles_ok X) (GO : Grp) (GL : GrpLaws GO) seed, blen seed = 32 ->
  ((exists n sk, gen_keypair seed = Ok (smul sk genG, sk) /\ (1 <= n <= rand_fuel)%nat /\ scalar_serialize sk = blocks_xor (mkrng seed 0) n /\
      forall j, (1 <= j < n)%nat -> q <= be_val (blocks_xor (mkrng seed 0) j)) \/
   (gen_keypair seed = Diverge /\ forall j, (1 <= j <= rand_fuel)%nat -> q <= be_val (blocks_xor (mkrng seed 0) j))) /\
  forall pk sk, gen_keypair seed = Ok (pk, sk) ->
  forall eseed rc dealer ad m i, nth_error rc i = Some pk ->
  (forall pl v, nth_error pl i = Some v -> encrypt_single eseed pl rc dealer ad = Ok m ->
     m_decrypt m ad dealer (Z.of_nat i) sk pk = Ok (OSimple v)) /\
  (forall pl v w, nth_error pl i = Some (v, w) -> encrypt_pair eseed pl rc dealer ad = Ok m ->
     m_decrypt m ad dealer (Z.of_nat i) sk pk = Ok (OPedersen v w)).
Proof.
  intros X HX GO GL seed L.
  assert (D : (exists n sk, gen_keypair seed = Ok (smul sk genG, sk) /\ (1 <= n <= rand_fuel)%nat /\ scalar_serialize sk = blocks_xor (mkrng seed 0) n /\
      forall j, (1 <= j < n)%nat -> q <= be_val (blocks_xor (mkrng seed 0) j)) \/
   (gen_keypair seed = Diverge /\ forall j, (1 <= j <= rand_fuel)%nat -> q <= be_val (blocks_xor (mkrng seed 0) j))).
  { unfold gen_keypair. rewrite seed_rng_ok by exact L. cbn [bind].
    destruct (random_scalar_spec HX (mkrng seed 0)) as [(n & s & Hn & -> & Hs & _ & Hj)|[-> Hj]]; cbn [bind fst]; [left; exists n, s|right]; auto. }
  split; [exact D|]. intros pk sk E eseed rc dealer ad m i Hi.
  assert (P : pk = mul_by_g sk).
  { destruct D as [(n & s & D & _)|[D _]]; rewrite E in D; [|discriminate D]. unfold mul_by_g. congruence. }
  subst pk. split.
  - intros pl v Hv Em. apply (decrypt_single_honest HX eseed pl rc dealer ad m i sk v Em Hi Hv).
  - intros pl v w Hv Em. apply (decrypt_pair_honest HX eseed pl rc dealer ad m i sk (v, w) Em Hi Hv).
Qed.
Print Assumptions C64_generated_keys.
(** together, on the curve: an accepted key string that is not a point makes the
    sender encrypt to nobody and to everybody *)
Theorem C64_accepted_key_without_secrecy : forall (X : Oracles) (HX : oracles_ok X),
  exists k : G (Grp := secpG), verify_mega_public_key 1 bad_x = Ok tt /\ deser (Grp := secpG) bad_x = Ok k /\
  forall seed pl rc dealer ad m i v, nth_error rc i = Some k -> nth_error pl i = Some v ->
    encrypt_single (GO := secpG) seed pl rc dealer ad = Ok m ->
    m_decrypt m ad dealer (Z.of_nat i) fzero k = Ok (OSimple v).
Proof.
  intros X HX. exists gzero. destruct C64_accepted_keys_are_points_refuted as (V & _ & D & _). split; [exact V|]. split.
  - apply (proj2 (proj1 (proj2 (proj2 (proj2 (proj2 (proj2 (proj2 (C62_protocol_group X HX))))))) bad_x gzero)). exact D.
  - intros seed pl rc dealer ad m i v Hi Hv E. apply (proj1 (C64_identity_key_gives_no_secrecy X HX secpG (secpL HX) seed rc dealer ad i Hi) pl m v E Hv).
Qed.
Print Assumptions C64_accepted_keys.
Print Assumptions C64_accepted_keys_are_points_refuted.
Print Assumptions C64_identity_key_gives_no_secrecy.
Print Assumptions C64_accepted_key_without_secrecy.
(** the hypotheses are met: an encryption to the identity and to an ordinary key *)
#[local] Existing Instances Toy.toyX Toy.toyG.
Example C64_ex : match encrypt_single (repeat 9 32) [of_Z q 5; of_Z q 6] [smul (of_Z q 11) genG; gzero] 3 (str "ad") with
  | Ok m => match m_decrypt m (str "ad") 3 1 fzero gzero, m_decrypt m (str "ad") 3 0 fzero gzero with
            | Ok (OSimple a), Ok (OSimple b) => feqb a (of_Z q 6) && negb (feqb b (of_Z q 5))
            | _, _ => false
            end
  | _ => false end = true.
Proof. vm_compute. reflexivity. Qed.
Print Assumptions C64_key_roundtrips.
(** a generated key, and an encryption to it *)
Example C64_ex_generated : match gen_keypair (repeat 5 32) with
  | Ok (pk, sk) => is_ok (encrypt_single (repeat 9 32) [of_Z q 5; of_Z q 6] [genG; pk] 3 (str "ad"))
  | _ => false end = true.
Proof. vm_compute. reflexivity. Qed.
