(** Property C61: Secret.From and the byte forms of openings. *)
From Coq Require Import ZArith Lia Bool String List.
From Verif Require Import Base BaseFacts Zmod Fields ModelScalar ProofScalar ModelXmd ModelRo ModelGroup ModelCommit ModelMega ModelDealing
  ProofZk ProofMega ProofDealing ModelSecret Toy.
Import ListNotations.
Open Scope Z_scope.

(** C61 *)
(** whatever ToCommitmentOpeningBytes produced cannot be turned back, and
    Secret.From fails on it for every second argument *)
Theorem C61_converted_openings_unusable :
  forall (X : Oracles) (GO : Grp) o b, to_opening_bytes o = Ok b ->
  to_opening b = Panic /\
  forall c2, (secret_from b c2 = Panic /\ (c2 = BNil \/ exists c d, c2 = BPedersenPtr c d)) \/ secret_from b c2 = Err.
Proof.
  intros X GO o b H. destruct o; inversion H; subst; (split; [reflexivity|]); intros c2; destruct c2; cbn [secret_from to_scalar to_scalar_bytes bind];
    (try (right; reflexivity)); left; (split; [reflexivity|]); eauto.
Qed.
Example C61_converted_openings_unusable_ex : exists b, to_opening_bytes (OPedersen fone fzero) = Ok b.
Proof. eexists; reflexivity. Qed.

Print Assumptions C61_converted_openings_unusable.

(** hand-made byte openings that do encode a scalar: the share of an unmasked
    resharing is accepted by NewIDkgDealingInternal, but the dealing has neither
    ciphertext nor commitment and makes PubliclyVerify panic *)
Theorem C61_unmasked_reshare_not_dealable :
  forall (X : Oracles) (HX : oracles_ok X) (GO : Grp) s,
  exists sh : shares, secret_from (BSimplePtr (Some (scalar_serialize s))) BNil = Ok sh /\
  forall seed threshold rc dealer ad, threshold <> 0 -> threshold <= Z.of_nat (List.length rc) ->
  exists d, new_dealing sh seed threshold rc dealer ad = Ok d /\ d_ct d = MNil /\ d_cm d = CNil /\ d_proof d = PNone /\
  forall op th dl rcv ad', publicly_verify d op th dl rcv ad' = Panic.
Proof.
  intros X HX GO s. exists SOther. unfold secret_from, to_scalar. rewrite k256_roundtrip. split; [reflexivity|].
  intros seed th rc dl ad T L. unfold new_dealing.
  assert (th =? 0 = false) as -> by (apply Z.eqb_neq; lia).
  assert (Z.of_nat (List.length rc) <? th = false) as -> by (apply Z.ltb_ge; lia). cbn [orb].
  destruct (new_seed_total HX seed poly_dst) as (s1 & -> & L1). cbn [bind].
  rewrite seed_rng_ok by assumption. cbn [bind].
  destruct (new_seed_total HX seed mega_dst) as (ms & -> & _). cbn [bind].
  eexists. split; [reflexivity|]. repeat split.
Qed.
Print Assumptions C61_unmasked_reshare_not_dealable.
Example C61_unmasked_reshare_not_dealable_ex :
  match secret_from (BSimplePtr (Some (scalar_serialize (of_Z q 5)))) BNil with
  | Ok sh => is_ok (new_dealing sh [1] 2 [genG; genG; genG] 4 (str "ad"))
  | _ => false
  end = true.
Proof. vm_compute. reflexivity. Qed.

(** the other two combinations do give the shares the type switch of
    NewIDkgDealingInternal knows *)
Theorem C61_masked_and_product_shares :
  forall (X : Oracles) (GO : Grp) a b c,
  secret_from (BPedersenPtr (Some (scalar_serialize a)) (Some (scalar_serialize b))) BNil = Ok (SReshareMasked a b) /\
  secret_from (BSimplePtr (Some (scalar_serialize a))) (BPedersenPtr (Some (scalar_serialize b)) (Some (scalar_serialize c))) =
    Ok (STimes a b c).
Proof. intros X GO a b c. unfold secret_from, to_scalar. rewrite !k256_roundtrip. split; reflexivity. Qed.
Print Assumptions C61_masked_and_product_shares.

(** a share that can be dealt comes from exactly one of these two combinations *)
Theorem C61_dealable_iff :
  forall (X : Oracles) (GO : Grp) c1 c2 sh, secret_from c1 c2 = Ok sh ->
  sh = SOther \/
  (exists b c x y, c1 = BPedersenPtr (Some b) (Some c) /\ c2 = BNil /\ k256_deserialize b = Ok x /\ k256_deserialize c = Ok y /\
     sh = SReshareMasked x y) \/
  (exists b c d x y z, c1 = BSimplePtr (Some b) /\ c2 = BPedersenPtr (Some c) (Some d) /\ k256_deserialize b = Ok x /\
     k256_deserialize c = Ok y /\ k256_deserialize d = Ok z /\ sh = STimes x y z).
Proof.
  assert (T : forall b x, to_scalar b = Ok x -> exists c, b = Some c /\ k256_deserialize c = Ok x).
  { intros [c|] x H; [|discriminate H]. exists c. split; [reflexivity|]. cbn [to_scalar] in H.
    destruct (k256_deserialize c); try discriminate H. exact H. }
  intros X GO c1 c2 sh H. destruct c1 as [b|b|b c|b c|]; cbn [secret_from] in H; try (left; now inversion H).
  - destruct c2 as [d|d|d e|d e|]; try discriminate H.
    + destruct (to_scalar b) eqn:E1; try discriminate H. destruct (to_scalar d) eqn:E2; try discriminate H.
      destruct (to_scalar e) eqn:E3; try discriminate H. cbn [bind] in H. inversion H; subst.
      apply T in E1, E2, E3. destruct E1 as (b' & -> & E1), E2 as (c' & -> & E2), E3 as (d' & -> & E3).
      right; right. exists b', c', d', a, a0, a1. auto 10.
    + destruct (to_scalar b); try discriminate H. left. now inversion H.
  - destruct c2 as [d|d|d e|d e|]; try discriminate H.
    destruct (to_scalar b) eqn:E1; try discriminate H. destruct (to_scalar c) eqn:E2; try discriminate H.
    cbn [bind] in H. inversion H; subst. apply T in E1, E2. destruct E1 as (b' & -> & E1), E2 as (c' & -> & E2).
    right; left. exists b', c', a, a0. auto 10.
Qed.
Print Assumptions C61_dealable_iff.
Example C61_dealable_iff_ex :
  is_ok (secret_from (BPedersenPtr (Some (scalar_serialize (of_Z q 5))) (Some (scalar_serialize (of_Z q 6)))) BNil) = true.
Proof. vm_compute. reflexivity. Qed.
