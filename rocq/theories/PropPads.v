(** C114: the one-time pads of the encrypted shares. *)
From Coq Require Import ZArith Lia Bool String List.
From Verif Require Import Base BaseFacts Zmod Fields ModelScalar ProofScalar ModelXmd SpecXmd ModelRo SpecRo ProofRo ProofRand ProofZk ProofTranscript ModelPoly ProofPoly
  ModelGroup GroupFacts ModelCommit ModelZk ModelMega ModelDealing ProofSign ProofMega PropPolyRandom PropOutput PropNonces.
From Verif Require Import Toy ToyShort.
Import ListNotations.
Open Scope Z_scope.

(** [pads dst n dealer i ad pk eph ss l]: the scalars [l] are the [n] outputs of
    the oracle [dst] for the dealer and receiver index, the session, the key of
    the receiver, the ephemeral key and the shared secret.  The calls are those
    of AddInput, whose string C68 describes *)
Definition pads {X : Oracles} {GO : Grp} (dst : bytes) (n : nat) (dealer i : Z) (ad : bytes) (pk eph ss : G) (l : list Fq) : Prop :=
  exists m, ro_form (run (new_ro dst)
      [(str "dealer_index", be_bytes 8 (dealer mod 2^32), 2); (str "recipient_index", be_bytes 8 (i mod 2^32), 2);
       (str "associated_data", ad, 1); (str "public_key", 1 :: ser pk, 3); (str "ephemeral_key", 1 :: ser eph, 3); (str "shared_secret", 1 :: ser ss, 3)]) = Ok m /\
    rfc_scalars sha256 m (dst ++ str "-secp256k1") n = Some l.

Section Facts.
Context {X : Oracles} (HX : oracles_ok X) {GO : Grp} {GL : GrpLaws GO}.
Lemma hash_pads t dealer i ad pk eph ss l : mega_hash t dealer i ad pk eph ss = Ok l <->
  pads (enc_dst t) (match t with MTsingle => 1 | MTpair => 2 end) dealer i ad pk eph ss l.
Proof.
  unfold mega_hash, pads.
  match goal with |- context [run (new_ro _) ?c] => set (calls := c) end.
  change (mega_ro t dealer i ad pk eph ss) with (run (new_ro (enc_dst t)) calls).
  assert (N : 0 <= match t with MTsingle => 1 | MTpair => 2 end <= 170) by (destruct t; lia).
  replace (match t with MTsingle => 1%nat | MTpair => 2%nat end) with (Z.to_nat (match t with MTsingle => 1 | MTpair => 2 end)) by (destruct t; reflexivity).
  split.
  - intros H. destruct (ro_form (run (new_ro (enc_dst t)) calls)) as [m| | |] eqn:E; [|unfold ro_output_scalars in H; rewrite E in H; discriminate..].
    exists m. split; [reflexivity|]. destruct (proj1 (C68_outputs X HX GO (enc_dst t) calls m E) _ N) as (l' & A & B). rewrite H in B. apply Ok_inj in B. now subst.
  - intros (m & E & R). destruct (proj1 (C68_outputs X HX GO (enc_dst t) calls m E) _ N) as (l' & A & B). rewrite A in R. injection R as ->. exact B.
Qed.
End Facts.

(** C114: the i-th ciphertext is the plaintext plus the pad of receiver i, made
    from the shared secret of its key and the ephemeral secret; the two parts of
    a pair have two successive outputs *)
Theorem C114_encryption : forall (X : Oracles) (HX : oracles_ok X) (GO : Grp) (GL : GrpLaws GO) seed rc dealer ad ct,
  (forall pl, encrypt_single seed pl rc dealer ad = Ok ct -> exists beta pop pf cs, ct = MSingle (smul beta genG) pop pf cs /\
     drawn_for seed (str "ic-crypto-tecdsa-mega-encryption-single-ephemeral-key") [beta] /\ length cs = length rc /\
     forall i pk p, nth_error rc i = Some pk -> nth_error pl i = Some p -> exists h,
       pads (str "ic-crypto-tecdsa-mega-encryption-single-encrypt") 1 dealer (Z.of_nat i) ad pk (smul beta genG) (smul beta pk) [h] /\
       nth_error cs i = Some (fadd h p)) /\
  (forall pl, encrypt_pair seed pl rc dealer ad = Ok ct -> exists beta pop pf cs, ct = MPair (smul beta genG) pop pf cs /\
     drawn_for seed (str "ic-crypto-tecdsa-mega-encryption-pair-ephemeral-key") [beta] /\ length cs = length rc /\
     forall i pk p, nth_error rc i = Some pk -> nth_error pl i = Some p -> exists h0 h1,
       pads (str "ic-crypto-tecdsa-mega-encryption-pair-encrypt") 2 dealer (Z.of_nat i) ad pk (smul beta genG) (smul beta pk) [h0; h1] /\
       nth_error cs i = Some (fadd h0 (fst p), fadd h1 (snd p))).
Proof.
  intros X HX GO GL seed rc dealer ad ct. split; intros pl E.
  - destruct (proj1 (C113_encryption X HX GO seed rc dealer ad ct) pl E) as [_ S].
    apply (encrypt_single_spec HX) in E. destruct E as (_ & _ & beta & pop & pf & cs & -> & L & _ & N). destruct S as (beta' & r & D & _ & Eb & _).
    apply smul_inj_l in Eb; [|apply genG_nz]. subst beta'. exists beta, pop, pf, cs. split; [reflexivity|]. split; [exact D|]. split; [exact L|].
    intros i pk p Hk Hp. destruct (N i pk p Hk Hp) as (h & Eh & Ec). exists h. split; [|exact Ec]. apply (hash_pads HX MTsingle) in Eh. exact Eh.
  - destruct (proj2 (C113_encryption X HX GO seed rc dealer ad ct) pl E) as [_ S].
    apply (encrypt_pair_spec HX) in E. destruct E as (_ & _ & beta & pop & pf & cs & -> & L & _ & N). destruct S as (beta' & r & D & _ & Eb & _).
    apply smul_inj_l in Eb; [|apply genG_nz]. subst beta'. exists beta, pop, pf, cs. split; [reflexivity|]. split; [exact D|]. split; [exact L|].
    intros i pk p Hk Hp. destruct (N i pk p Hk Hp) as (h0 & h1 & Eh & Ec). exists h0, h1. split; [|exact Ec]. apply (hash_pads HX MTpair) in Eh. exact Eh.
Qed.
Print Assumptions C114_encryption.

(** C114: decryption of any ciphertext, also of one made otherwise, is taking off
    the pad of the receiver for the shared secret *)
Theorem C114_decryption : forall (X : Oracles) (HX : oracles_ok X) (GO : Grp) (GL : GrpLaws GO) eph ad dealer i pk ss, 0 <= i ->
  (forall cs s, decrypt_single_ss eph cs ad dealer i pk ss = Ok s <-> exists c h, nth_error cs (Z.to_nat i) = Some c /\
     pads (str "ic-crypto-tecdsa-mega-encryption-single-encrypt") 1 dealer i ad pk eph ss [h] /\ c = fadd h s) /\
  (forall cs s t, decrypt_pair_ss eph cs ad dealer i pk ss = Ok (s, t) <-> exists h0 h1, nth_error cs (Z.to_nat i) = Some (fadd h0 s, fadd h1 t) /\
     pads (str "ic-crypto-tecdsa-mega-encryption-pair-encrypt") 2 dealer i ad pk eph ss [h0; h1]).
Proof.
  intros X HX GO GL eph ad dealer i pk ss Hi.
  assert (I : forall A (cs : list A), (Z.of_nat (length cs) <=? i) = false -> exists c, nth_error cs (Z.to_nat i) = Some c).
  { intros A cs L. apply Z.leb_gt in L. destruct (nth_error cs (Z.to_nat i)) as [c|] eqn:E; [eauto|]. apply nth_error_None in E. lia. }
  assert (I' : forall A (cs : list A) c, nth_error cs (Z.to_nat i) = Some c -> (Z.of_nat (length cs) <=? i) = false).
  { intros A cs c E. apply Z.leb_gt. assert (Z.to_nat i < length cs)%nat by (apply nth_error_Some; congruence). lia. }
  assert (Li : (i <? 0) = false) by (apply Z.ltb_ge; lia).
  split.
  - intros cs s. unfold decrypt_single_ss, index, nth_or_panic. rewrite Li. split.
    + destruct (Z.of_nat (length cs) <=? i) eqn:L; [discriminate|]. destruct (I _ _ L) as (c & Ec). rewrite Ec.
      destruct (mega_hash MTsingle dealer i ad pk eph ss) as [hm| | |] eqn:Eh; cbn [bind]; try discriminate.
      destruct hm as [|h hm]; cbn [nth_error bind]; [discriminate|]. intros H. apply Ok_inj in H.
      apply (hash_pads HX MTsingle) in Eh.
      assert (hm = []) as ->. { destruct Eh as (m & _ & R). unfold rfc_scalars in R. destruct (rfc_expand _ _ _ _); [|discriminate]. apply (f_equal (fun o => match o with Some l => length l | None => O end)) in R. cbn [option_map] in R. rewrite map_length, seq_length in R. cbn [length] in R.
        destruct hm; [reflexivity|discriminate]. }
      exists c, h. split; [reflexivity|]. split; [exact Eh|]. rewrite <- H. ring.
    + intros (c & h & Ec & P & ->). rewrite (I' _ _ _ Ec), Ec. rewrite (proj2 (hash_pads HX MTsingle dealer i ad pk eph ss [h]) P). cbn [bind nth_error]. f_equal. ring.
  - intros cs s t. unfold decrypt_pair_ss, index, nth_or_panic. rewrite Li. split.
    + destruct (Z.of_nat (length cs) <=? i) eqn:L; [discriminate|]. destruct (I _ _ L) as ([c0 c1] & Ec). rewrite Ec.
      destruct (mega_hash MTpair dealer i ad pk eph ss) as [hm| | |] eqn:Eh; cbn [bind]; try discriminate.
      destruct hm as [|h0 [|h1 hm]]; cbn [nth_error bind]; try discriminate. intros H. apply Ok_inj in H. cbn [fst snd] in H.
      apply (hash_pads HX MTpair) in Eh.
      assert (hm = []) as ->. { destruct Eh as (m & _ & R). unfold rfc_scalars in R. destruct (rfc_expand _ _ _ _); [|discriminate]. apply (f_equal (fun o => match o with Some l => length l | None => O end)) in R. cbn [option_map] in R. rewrite map_length, seq_length in R. cbn [length] in R.
        destruct hm; [reflexivity|discriminate]. }
      exists h0, h1. split; [|exact Eh]. pose proof (f_equal fst H) as H0. pose proof (f_equal snd H) as H1. cbn [fst snd] in H0, H1. rewrite <- H0, <- H1. do 2 f_equal; ring.
    + intros (h0 & h1 & Ec & P). rewrite (I' _ _ _ Ec), Ec. rewrite (proj2 (hash_pads HX MTpair dealer i ad pk eph ss [h0; h1]) P). cbn [bind nth_error fst snd]. do 2 f_equal; ring.
Qed.
Print Assumptions C114_decryption.

(** test values: a pair encrypted for two receivers and taken apart by the second *)
Section Ex.
Existing Instance ToyShort.shortX.
Existing Instance toyG.
Example C114_ex : match encrypt_pair [1] [(fone, of_Z q 5); (of_Z q 6, of_Z q 7)] [mul_by_g (of_Z q 21); mul_by_g (of_Z q 22)] 4 (str "ad") with
  | Ok (MPair e _ _ cs) => match decrypt_pair_ss e cs (str "ad") 4 1 (mul_by_g (of_Z q 22)) (smul (of_Z q 22) e) with Ok (s, t) => (feqb s (of_Z q 6) && feqb t (of_Z q 7))%bool | _ => false end
  | _ => false end = true.
Proof. vm_compute. reflexivity. Qed.
Example C114_ex_single : is_ok (encrypt_single [1] [fone; of_Z q 5] [mul_by_g (of_Z q 21); mul_by_g (of_Z q 22)] 4 (str "ad")) = true /\
  is_ok (decrypt_single_ss genG [fone] (str "ad") 4 0 genG genG) = true.
Proof. vm_compute. auto. Qed.
End Ex.
