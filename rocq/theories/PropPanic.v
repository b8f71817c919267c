(** Property C80: which inputs crash a node.  For every function that handles
    what other nodes send, the exact set of arguments on which it panics; and
    what a node that checks dealings with PubliclyVerify first is safe from. *)
From Coq Require Import ZArith Lia Bool String List.
From Verif Require Import Base BaseFacts Zmod Fields ModelScalar ModelXmd ModelRo ModelPoly ModelGroup GroupFacts
  ModelCommit ModelZk ModelMega ModelDealing SpecDealing ProofTranscript ModelComplaint ProofComplaint ModelKey ModelSign ProofSign
  SpecPanic ProofPanic Toy.
Import ListNotations.
Open Scope Z_scope.

(** ** the exact conditions *)
Theorem C80_publicly_verify_panics_iff :
  forall (X : Oracles) (HX : oracles_ok X) (GO : Grp) (GL : GrpLaws GO) d op threshold dealer receivers ad,
  publicly_verify d op threshold dealer receivers ad = Panic <-> public_crash d op threshold dealer receivers ad.
Proof. intros X HX GO GL d op th k n ad. exact (public_panic HX d op th k n ad). Qed.

Theorem C80_receiver_panics_iff :
  forall (X : Oracles) (HX : oracles_ok X) (GO : Grp) (GL : GrpLaws GO) d sk pk ad dealer i,
  (private_verify d sk pk ad dealer i = Panic <-> ~ usable (d_cm d) \/ private_crash d ad dealer i) /\
  (open_dealing d ad dealer i sk pk = Panic <-> private_crash d ad dealer i).
Proof. intros X HX GO GL d sk pk ad k i. split; [exact (private_panic HX d sk pk ad k i)|exact (decrypt_check_panic HX d ad k i sk pk)]. Qed.

Theorem C80_complaint_verify_panics_iff :
  forall (X : Oracles) (HX : oracles_ok X) (GO : Grp) (GL : GrpLaws GO) c d dealer complainer pk ad,
  complaint_verify c d dealer complainer pk ad = Panic <->
  complaint_crash (exists a e, assoc_data ad complainer dealer pk = Ok a /\ m_eph (d_ct d) = Ok e /\
                     dlog_verify (cp_proof c) genG e pk (cp_secret c) a = Ok tt) d complainer.
Proof. intros X HX GO GL c d k i pk ad. exact (complaint_panic HX c d k i pk ad). Qed.

Theorem C80_new_transcript_panics_iff :
  forall (X : Oracles) (GO : Grp) (GL : GrpLaws GO) threshold ds op, keys_ok ds ->
  (new_transcript threshold ds op = Panic <-> transcript_crash threshold ds op).
Proof. intros X GO GL th ds op K. exact (transcript_panic th ds op K). Qed.

Theorem C80_reconstruct_panics_iff :
  forall (X : Oracles) (GO : Grp) d os ix,
  reconstruct_share d os ix = Panic <->
  ~ is_cm (d_cm d) \/
  Z.of_nat (length (pts_of (d_cm d))) <= Z.of_nat (length os) /\ (pts_of (d_cm d) = [] \/ ~ bare (d_cm d)).
Proof. intros X GO d os ix. exact (reconstruct_panic d os ix). Qed.

Theorem C80_signing_panics_iff :
  forall (X : Oracles) (HX : oracles_ok X) (GO : Grp) (GL : GrpLaws GO) pa hash rnd key presig,
  (forall lam kl xl, new_share pa hash rnd key presig lam kl xl = Panic <->
     rho_crash key presig \/
     (exists r, derive_rho hash rnd pa key presig = Ok r) /\
     (64 < blen hash \/ lambda_parts lam = None /\ (lambda_parts kl <> None \/ lambda_parts xl <> None))) /\
  (forall s signer lam kl xl, share_verify s pa hash rnd signer key presig lam kl xl = Panic <->
     rho_crash key presig \/
     (exists r, derive_rho hash rnd pa key presig = Ok r) /\
     (64 < blen hash \/ ~ usable (tr_commitment lam) \/ ~ usable (tr_commitment kl) \/ ~ usable (tr_commitment xl))) /\
  (forall threshold shares, combine_sig pa hash rnd key presig threshold shares = Panic <->
     threshold <= Z.of_nat (length shares) /\
     (rho_crash key presig \/ (exists r, derive_rho hash rnd pa key presig = Ok r) /\ threshold < 0)) /\
  (forall sig, sig_verify sig pa hash rnd key presig = Panic <->
     sg_r sig <> fzero /\ sg_s sig <> fzero /\ (64 < blen hash \/ rho_crash key presig)).
Proof.
  intros X HX GO GL pa h rnd key presig. split; [|split; [|split]]; intros.
  - apply (new_share_panic HX).
  - apply (share_verify_panic HX).
  - apply (combine_sig_panic HX).
  - apply (sig_verify_panic HX).
Qed.
Print Assumptions C80_publicly_verify_panics_iff.
Print Assumptions C80_receiver_panics_iff.
Print Assumptions C80_complaint_verify_panics_iff.
Print Assumptions C80_new_transcript_panics_iff.
Print Assumptions C80_reconstruct_panics_iff.
Print Assumptions C80_signing_panics_iff.

(** ** what a careful node is safe from *)
(** A node that verifies with a positive threshold and proper operands can be
    crashed by a dealing that has a commitment and a ciphertext in one way
    only: a dealing of a product whose proof is left out. *)
Theorem C80_only_missing_proof_crashes_verifier :
  forall (X : Oracles) (HX : oracles_ok X) (GO : Grp) (GL : GrpLaws GO) d op threshold dealer receivers ad,
  0 < threshold ->
  (match op with TReshareMasked p | TReshareUnmasked p => usable p | TTimes l r => usable l /\ usable r | _ => True end) ->
  is_cm (d_cm d) -> d_ct d <> MNil ->
  (publicly_verify d op threshold dealer receivers ad = Panic <->
   Z.of_nat (length (pts_of (d_cm d))) = threshold /\ m_check_validity (d_ct d) receivers ad dealer = Ok tt /\
   (exists l r, op = TTimes l r) /\ d_proof d = PNone).
Proof.
  intros X HX GO GL d op th k n ad Hth U I N. rewrite (public_panic HX). unfold public_crash, proof_crashes. split.
  - intros [H|(L & [H|[H|(V & H)]])]; [contradiction|lia|contradiction|]. split; [exact L|]. split; [exact V|].
    destruct op as [|p|p|l r|], (d_proof d); try contradiction H; try (destruct H as (_ & H); contradiction || (destruct H as (_ & H); contradiction)).
    + split; [eauto|reflexivity].
    + destruct H as (_ & _ & [H|(_ & H)]); destruct H; apply U.
  - intros (L & V & (l & r & ->) & E). right. split; [exact L|]. right. right. split; [exact V|]. rewrite E. exact Logic.I.
Qed.

Lemma verified_no_crash {X : Oracles} {GO : Grp} {GL : GrpLaws GO} d op th k n ad i :
  publicly_verify d op th k n ad = Ok tt -> 0 <= i < n -> usable (d_cm d) /\ ~ private_crash d ad k i.
Proof.
  intros V Hi. pose proof (kinds_of_verified d op th k n ad V) as Kd. apply publicly_verify_inv in V. destruct V as (L & Np & R & P & K).
  assert (Q : same_kind (d_ct d) (d_cm d)).
  { destruct op as [|p|p|l r|]; [right|left|left|right|contradiction]; destruct K as (K1 & (e & p' & pf & c & K2) & _);
      (split; [repeat eexists; exact K2|eexists; exact K1]). }
  assert (U : usable (d_cm d)). { split; [|exact Np]. destruct Q as [[_ Q]|[_ Q]]; [left|right]; exact Q. }
  split; [exact U|]. intros [H|(_ & m & Rm & Lm & H)]; [rewrite H in R; discriminate R|]. rewrite R in Rm. injection Rm as <-.
  destruct H as [H|H]; [lia|]. apply H. auto.
Qed.
Lemma transcript_made_shape {X : Oracles} {GO : Grp} {GL : GrpLaws GO} th ds op t : 0 < th -> op <> TOther ->
  new_transcript th ds op = Ok t -> transcript_shape (tr_commitment t).
Proof.
  intros Hth No H. unfold new_transcript in H. apply bind_inv in H. destruct H as ([] & C & H).
  assert (CI : forall ty c, (ty = ct_simple \/ ty = ct_pedersen) -> combine_interp ty th ds = Ok c -> transcript_shape c).
  { intros ty c Ht Ec. unfold combine_interp in Ec. apply bind_inv in Ec. destruct Ec as (cms & _ & Ec). apply bind_inv in Ec. destruct Ec as (cs & _ & Ec).
    apply bind_inv in Ec. destruct Ec as (n & En & Ec). unfold go_make in En. destruct (Z.ltb_spec th 0); [lia|]. apply Ok_inj in En. subst n.
    apply bind_inv in Ec. destruct Ec as (pts & Ep & Ec). apply mapM_length in Ep. rewrite seq_length in Ep. apply Ok_inj in Ec. subst c.
    exists pts. split; [intros ->; cbn [length] in Ep; lia|]. destruct Ht as [-> | ->]; [right; left|right; right]; reflexivity. }
  destruct op as [|p|p|l r|]; [| | | |congruence].
  - apply bind_inv in H. destruct H as (n & En & H). unfold go_make in En. destruct (Z.ltb_spec th 0); [lia|]. apply Ok_inj in En. subst n.
    apply bind_inv in H. destruct H as (l & El & H). apply Ok_inj in H. subst t.
    exists l. split; [|left; reflexivity]. intros ->.
    assert (LS : forall ds acc r, Forall (right_length th) ds -> Z.of_nat (length acc) = th -> sum_dealings acc ds = Ok r -> Z.of_nat (length r) = th).
    { clear -Hth. induction ds as [|[k d] ds IH]; intros acc r F L H; cbn [sum_dealings] in H; [apply Ok_inj in H; congruence|]. inversion F as [|? ? [I E] F']; cbn [snd] in I. unfold dl_pts in E. cbn [snd] in E.
      apply bind_inv in H. destruct H as (t & _ & H). destruct (negb _); [discriminate H|]. rewrite (c_points_pts _ I), bind_Ok in H.
      destruct (sum_points_no_panic acc (pts_of (d_cm d)) ltac:(lia)) as (r0 & Er & Lr). rewrite Er, bind_Ok in H. apply (IH r0 r F'); [lia|exact H]. }
    apply LS in El; [cbn [length] in El; lia|apply check_lengths_forall; exact C|rewrite repeat_length; lia].
  - apply bind_inv in H. destruct H as (ty & _ & H). destruct (negb _); [discriminate H|]. apply bind_inv in H. destruct H as (n & _ & H). destruct (_ <? _); [discriminate H|].
    apply bind_inv in H. destruct H as (c & Ec & H). apply bind_inv in H. destruct H as (a & _ & H). apply bind_inv in H. destruct H as (b & _ & H).
    destruct (geqb a b); [|discriminate H]. apply Ok_inj in H. subst t. apply (CI ct_simple); auto.
  - apply bind_inv in H. destruct H as (ty & _ & H). destruct (negb _); [discriminate H|]. apply bind_inv in H. destruct H as (n & _ & H). destruct (_ <? _); [discriminate H|].
    apply bind_inv in H. destruct H as (c & Ec & H). apply Ok_inj in H. subst t. apply (CI ct_simple); auto.
  - apply bind_inv in H. destruct H as (ty & _ & H). destruct (negb _); [discriminate H|]. apply bind_inv in H. destruct H as (ty2 & _ & H). destruct (negb _); [discriminate H|].
    apply bind_inv in H. destruct H as (n & _ & H). apply bind_inv in H. destruct H as (n2 & _ & H). destruct (_ <? _); [discriminate H|].
    apply bind_inv in H. destruct H as (c & Ec & H). apply Ok_inj in H. subst t. apply (CI ct_pedersen); auto.
Qed.

(** Once every dealing has passed PubliclyVerify nothing that follows panics,
    whatever else the senders made up: not decryption, not building the
    transcript, not combining openings, not making complaints, and not
    verifying complaints of nodes with a non-negative index.  Openings that
    other nodes provide may be anything, as long as the dealings' commitments
    are not behind the wrappers of a transcript. *)
Theorem C80_verified_dealings_never_panic :
  forall (X : Oracles) (HX : oracles_ok X) (GO : Grp) (GL : GrpLaws GO) ds op threshold n ad,
  keys_ok ds -> ds <> [] -> 0 < threshold ->
  (forall k d, In (k, d) ds -> publicly_verify d op threshold k n ad = Ok tt) ->
  (forall k d i sk pk, In (k, d) ds -> 0 <= i < n -> private_verify d sk pk ad k i <> Panic) /\
  new_transcript threshold ds op <> Panic /\
  (forall k d c complainer pk ad', In (k, d) ds -> 0 <= complainer -> complaint_verify c d k complainer pk ad' <> Panic) /\
  (forall i sk pk seed, 0 <= i < n -> generate_complaints ds ad i sk pk seed <> Panic) /\
  (forall t i sk pk, new_transcript threshold ds op = Ok t -> 0 <= i < n -> from_dealings ds (tr_commitment t) ad i sk pk <> Panic) /\
  (forall t i sk pk provided, new_transcript threshold ds op = Ok t -> 0 <= i < n ->
     (forall k d, In (k, d) ds -> bare (d_cm d)) ->
     from_dealings_and_openings ds provided (tr_commitment t) ad i sk pk <> Panic).
Proof.
  intros X HX GO GL ds op th n ad KO Nd Hth V.
  assert (NO : op <> TOther).
  { destruct ds as [|[k d] ds]; [congruence|]. pose proof (V k d (or_introl eq_refl)) as H. apply publicly_verify_inv in H. intros ->. apply H. }
  split; [|split; [|split; [|split; [|split]]]].
  - intros k d i sk pk Hin Hi H. apply (private_panic HX) in H. destruct (verified_no_crash d op th k n ad i (V k d Hin) Hi) as [U C]. tauto.
  - intros H. apply (transcript_panic th ds op KO) in H. destruct H as [(pre & [k d] & post & -> & _ & N)|[F H]].
    + assert (Hin : In (k, d) (pre ++ (k, d) :: post)) by (apply in_or_app; right; left; reflexivity). specialize (V k d Hin).
      apply N. cbn [snd]. destruct (is_cm_dec (d_cm d)) as [I|I]; [exact I|]. apply len_panic in I. unfold publicly_verify in V. rewrite I in V. discriminate V.
    + destruct ds as [|[k d] ds]; [congruence|]. specialize (V k d (or_introl eq_refl)). apply publicly_verify_inv in V. destruct V as (_ & _ & _ & _ & V).
      destruct op as [|p|p|l r|]; [lia| | | |congruence].
      * destruct V as (_ & _ & _ & Up & Np & _). destruct H as [H|(_ & _ & _ & [H|H])]; [apply H; left; eauto|contradiction|lia].
      * destruct V as (_ & _ & Ip & _). contradiction.
      * destruct V as (_ & _ & Ul & _ & Ur & _). destruct H as [H|(_ & H)]; apply H; [left|right]; eauto.
  - intros k d c i pk ad' Hin Hi H. apply (complaint_panic HX) in H. specialize (V k d Hin). pose proof V as V'. apply publicly_verify_inv in V. destruct V as (_ & Np & R & _ & V).
    destruct H as [H|(_ & [H|(_ & m & _ & _ & [H|H])])]; [rewrite H in R; discriminate R| |lia|contradiction].
    apply H. destruct (is_cm_dec (d_cm d)) as [I|I]; [exact I|]. apply len_panic in I. unfold publicly_verify in V'. rewrite I in V'. discriminate V'.
  - intros i sk pk seed Hi H. unfold generate_complaints in H. apply bind_panic in H. destruct H as [H|(r & _ & H)]; [|destruct r; discriminate H].
    assert (T : (exists r, complaints_loop ds ad i sk pk seed = Ok r) \/ complaints_loop ds ad i sk pk seed = Diverge).
    { apply (loop_total HX). intros k d Hin. split.
      - intros E. specialize (V k d Hin). apply kinds_of_verified in V. unfold kinds_match in V. rewrite E in V. exact V.
      - apply (verified_check HX d op th k n); auto. }
    destruct T as [[r E]|E]; rewrite E in H; discriminate H.
  - intros t i sk pk T Hi. apply (from_dealings_no_panic HX); [apply (transcript_made_shape th ds op); assumption|].
    intros k d Hin. apply (verified_no_crash d op th k n ad i (V k d Hin) Hi).
  - intros t i sk pk pv T Hi B H. unfold from_dealings_and_openings in H. apply bind_panic in H. destruct H as [H|(os & Eo & H)].
    + apply mapM_panic in H. destruct H as ([k d] & Hin & H). cbn [fst snd] in H. destruct (verified_no_crash d op th k n ad i (V k d Hin) Hi) as [[I N] C].
      destruct (zlookup k pv) as [sh|].
      * apply reconstruct_panic in H. destruct H as [H|(_ & [H|H])]; [contradiction|contradiction|]. apply H. exact (B k d Hin).
      * apply (decrypt_check_panic HX) in H. contradiction.
    + apply mapM_length in Eo. revert H. apply combine_openings_no_panic; [apply (transcript_made_shape th ds op); assumption|rewrite map_length; congruence].
Qed.
Print Assumptions C80_only_missing_proof_crashes_verifier.
Print Assumptions C80_verified_dealings_never_panic.

(** a user expects bad dealings to be refused, not to crash the node *)
Theorem C80_robust_verification_refuted :
  ~ (forall (X : Oracles) (HX : oracles_ok X) (GO : Grp) (GL : GrpLaws GO) d op threshold dealer receivers ad,
       0 < threshold ->
       (match op with TReshareMasked p | TReshareUnmasked p => usable p | TTimes l r => usable l /\ usable r | _ => True end) ->
       is_cm (d_cm d) -> d_ct d <> MNil ->
       publicly_verify d op threshold dealer receivers ad <> Panic).
Proof.
  intros H. specialize (H toyX toyX_ok toyG toyL).
  assert (E : match new_dealing SRandom [1] 1 [mul_by_g (of_Z q 21)] 4 (str "ad") with
    | Ok d => match d_cm d with CPedersen (_ :: _) => true | _ => false end &&
              match d_ct d with MNil => false | _ => true end &&
              match publicly_verify d (TTimes (CSimple [genG]) (CPedersen [genG])) 1 4 1 (str "ad") with Panic => true | _ => false end
    | _ => false end = true) by (vm_compute; reflexivity).
  destruct (new_dealing SRandom [1] 1 [mul_by_g (of_Z q 21)] 4 (str "ad")) as [d| | |]; try discriminate E.
  apply andb_prop in E. destruct E as [E E3]. apply andb_prop in E. destruct E as [E1 E2].
  apply (H d (TTimes (CSimple [genG]) (CPedersen [genG])) 1 4 1 (str "ad")).
  - lia.
  - split; (split; [|discriminate]); [left|right]; eexists; reflexivity.
  - right. destruct (d_cm d) as [|l| | |]; try discriminate E1. exists l. reflexivity.
  - intros N. rewrite N in E2. discriminate E2.
  - destruct (publicly_verify d _ 1 4 1 (str "ad")); try discriminate E3. reflexivity.
Qed.
Print Assumptions C80_robust_verification_refuted.

(** two verified dealings, and ways to crash the functions *)
Example C80_ex : match new_dealing SRandom [1] 2 [mul_by_g (of_Z q 21); mul_by_g (of_Z q 22)] 4 (str "ad"),
                       new_dealing (SReshareUnmasked (of_Z q 10)) [2] 2 [mul_by_g (of_Z q 21); mul_by_g (of_Z q 22)] 4 (str "ad") with
  | Ok d, Ok d' =>
      (is_ok (publicly_verify d TRandom 2 4 2 (str "ad"))
       && is_ok (private_verify d (of_Z q 21) (mul_by_g (of_Z q 21)) (str "ad") 4 0)
       (* a negative index, a ciphertext beside a commitment of the other kind *)
       && match private_verify d (of_Z q 21) (mul_by_g (of_Z q 21)) (str "ad") 4 (-1) with Panic => true | _ => false end
       && match private_verify (mkdealing (d_ct d) (d_cm d') PNone) (of_Z q 21) (mul_by_g (of_Z q 21)) (str "ad") 4 0 with Panic => true | _ => false end
       (* the commitment of the dealing is missing *)
       && match new_transcript 2 [(4, mkdealing (d_ct d) CNil PNone)] TRandom with Panic => true | _ => false end
       (* a previous transcript without points *)
       && match new_transcript 2 [(4, d')] (TReshareUnmasked (CSimple [])) with Panic => true | _ => false end
       && match reconstruct_share (mkdealing (d_ct d') (CInterp (d_cm d')) PNone) [(0, OSimple fone); (1, OSimple fone)] 2 with Panic => true | _ => false end)%bool
  | _, _ => false end = true.
Proof. vm_compute. reflexivity. Qed.
Example C80_ex_sign :
  match sig_verify (mksig fone fone) [] (repeat 1 65) (repeat 2 32) (mktranscript (CSimple [genG])) (mktranscript (CInterp (CSimple [genG]))) with Panic => true | _ => false end &&
  match sig_verify (mksig fone fone) [] (repeat 1 32) (repeat 2 32) (mktranscript (CSimple [genG])) (mktranscript (CInterp (CSimple []))) with Panic => true | _ => false end &&
  match sig_verify (mksig fone fone) [] (repeat 1 32) (repeat 2 32) (mktranscript (CSimple [genG])) (mktranscript (CInterp (CSimple [genG]))) with Err => true | _ => false end = true.
Proof. vm_compute. reflexivity. Qed.
