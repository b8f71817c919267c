(** C36 - C44: dealings, transcripts, reconstruction, combined openings. *)
From Coq Require Import ZArith Lia Bool String List.
From Verif Require Import Base BaseFacts Zmod Fields ModelScalar ProofScalar ModelXmd ModelRo SpecPoly ModelPoly ProofPoly
  ModelGroup GroupFacts SpecGroup ModelCommit ProofCommit ModelZk ModelMega ModelDealing SpecDealing
  ProofDealing ProofTranscript ProofHonest Toy.
Import ListNotations.
Open Scope Z_scope.

(** C36 *)
Theorem C36_threshold_rejected : forall (X : Oracles) (GO : Grp) sh seed threshold rc dealer ad,
  threshold = 0 \/ Z.of_nat (length rc) < threshold -> new_dealing sh seed threshold rc dealer ad = Err.
Proof. intros X GO. exact new_dealing_bad_threshold. Qed.
(** [Diverge]: the rejection sampler of a random scalar does not stop *)
Theorem C36_dealing_shape : forall (X : Oracles) (HX : oracles_ok X) (GO : Grp) (GL : GrpLaws GO) sh seed threshold rc dealer ad,
  sh <> SOther -> 0 < threshold <= Z.of_nat (length rc) ->
  (exists d, new_dealing sh seed threshold rc dealer ad = Ok d /\ well_shaped sh (Z.to_nat threshold) (length rc) d) \/
  new_dealing sh seed threshold rc dealer ad = Diverge.
Proof.
  intros X HX GO GL sh seed th rc dealer ad Hs R.
  destruct (new_dealing_cases HX sh seed th rc dealer ad Hs R) as [(d & E & D)|E]; [left|right; exact E].
  exists d. split; [exact E|]. exact (dealt_shape _ _ _ _ _ _ D).
Qed.
(** a negative threshold passes the check at the top and runs into make([]T, n) *)
Theorem C36_negative_threshold_panics : forall (X : Oracles) (HX : oracles_ok X) (GO : Grp) sh seed threshold rc dealer ad,
  sh <> SOther -> threshold < 0 ->
  new_dealing sh seed threshold rc dealer ad = Panic \/ new_dealing sh seed threshold rc dealer ad = Diverge.
Proof. intros X HX GO. exact (new_dealing_negative HX). Qed.
Print Assumptions C36_threshold_rejected.
Print Assumptions C36_dealing_shape.
Print Assumptions C36_negative_threshold_panics.
Example C36_ex : is_ok (new_dealing (STimes (of_Z q 5) (of_Z q 6) (of_Z q 7)) [1] 2 [genG; genG; genG] 4 (str "ad")) = true
  /\ match new_dealing SRandom [1] 3 [genG; genG] 4 (str "ad") with Err => true | _ => false end = true
  /\ match new_dealing SRandom [1] (-3) [genG; genG] 4 (str "ad") with Panic => true | _ => false end = true.
Proof. split; [vm_compute; reflexivity|]. split; vm_compute; reflexivity. Qed.

(** C37 *)
Theorem C37_honest_public : forall (X : Oracles) (HX : oracles_ok X) (GO : Grp) (GL : GrpLaws GO) sh op seed threshold rc dealer ad d,
  new_dealing sh seed threshold rc dealer ad = Ok d -> share_consistent sh op dealer ->
  publicly_verify d op threshold dealer (Z.of_nat (length rc)) ad = Ok tt.
Proof.
  intros X HX GO GL sh op seed th rc dealer ad d E C.
  assert (Hs : sh <> SOther) by (intros ->; exact C).
  destruct (new_dealing_inv HX _ _ _ _ _ _ _ Hs E) as [R D]. exact (dealt_publicly_verifies sh op th rc dealer ad d (proj1 R) D C).
Qed.
Theorem C37_honest_private : forall (X : Oracles) (HX : oracles_ok X) (GO : Grp) (GL : GrpLaws GO) sh seed threshold rc dealer ad d,
  sh <> SOther -> new_dealing sh seed threshold rc dealer ad = Ok d ->
  forall i sk, nth_error rc i = Some (mul_by_g sk) -> private_verify d sk (mul_by_g sk) ad dealer (Z.of_nat i) = Ok tt.
Proof.
  intros X HX GO GL sh seed th rc dealer ad d Hs E i sk Hi.
  destruct (new_dealing_inv HX _ _ _ _ _ _ _ Hs E) as [R D]. exact (dealt_privately_verifies _ _ _ _ _ _ _ _ (proj1 R) D Hi).
Qed.
(** what is dealt: a polynomial of the threshold's length whose constant term
    is the share, committed to, and whose value each receiver decrypts *)
Theorem C37_receiver_shares : forall (X : Oracles) (HX : oracles_ok X) (GO : Grp) (GL : GrpLaws GO) sh seed threshold rc dealer ad d,
  sh <> SOther -> new_dealing sh seed threshold rc dealer ad = Ok d ->
  exists po mo pair, length po = Z.to_nat threshold /\
    match sh with
    | SRandom => pair = true
    | SReshareUnmasked s | SReshareMasked s _ => pair = false /\ nth 0 po fzero = s
    | STimes l r _ => pair = true /\ nth 0 po fzero = fmul l r
    | SOther => False
    end /\
    (if pair : bool then commits2 (pts_of (d_cm d)) po mo /\ length mo = Z.to_nat threshold else commits (pts_of (d_cm d)) po) /\
    forall i sk, nth_error rc i = Some (mul_by_g sk) ->
      open_dealing d ad dealer (Z.of_nat i) sk (mul_by_g sk) = Ok (opening_at po mo pair (Z.of_nat i)).
Proof.
  intros X HX GO GL sh seed th rc dealer ad d Hs E.
  destruct (new_dealing_inv HX _ _ _ _ _ _ _ Hs E) as [[R _] D]. unfold open_dealing.
  destruct sh as [|s|s m|l r rm|]; [| | | |congruence].
  - destruct D as (po & mo & L1 & L2 & B & _). exists po, mo, true. split; [exact L1|]. split; [reflexivity|].
    split; [split; [exact (proj2 (proj2 (body_pair_cm _ _ _ _ _ _ _ _ B)))|exact L2]|].
    intros i sk Hi. exact (body_pair_opens _ _ _ _ _ _ _ _ _ _ B R Hi).
  - destruct D as (po & L1 & C & B & _). exists po, [], false. split; [exact L1|]. split; [auto|].
    split; [exact (proj2 (proj2 (body_single_cm _ _ _ _ _ _ _ B)))|].
    intros i sk Hi. exact (body_single_opens _ _ _ _ _ _ _ _ _ B R Hi).
  - destruct D as (po & z & L1 & C & B & _). exists po, [], false. split; [exact L1|]. split; [auto|].
    split; [exact (proj2 (proj2 (body_single_cm _ _ _ _ _ _ _ B)))|].
    intros i sk Hi. exact (body_single_opens _ _ _ _ _ _ _ _ _ B R Hi).
  - destruct D as (po & mo & z & L1 & L2 & C & B & _). exists po, mo, true. split; [exact L1|]. split; [auto|].
    split; [split; [exact (proj2 (proj2 (body_pair_cm _ _ _ _ _ _ _ _ B)))|exact L2]|].
    intros i sk Hi. exact (body_pair_opens _ _ _ _ _ _ _ _ _ _ B R Hi).
Qed.
Print Assumptions C37_honest_public.
Print Assumptions C37_honest_private.
Print Assumptions C37_receiver_shares.
(** shares on lines 5 + x and 6 + x with mask 7, dealer 4 (x = 5) *)
Example C37_ex :
  is_ok (new_dealing (STimes (of_Z q 10) (of_Z q 11) (of_Z q 7)) [1] 2 [mul_by_g (of_Z q 21); mul_by_g (of_Z q 22)] 4 (str "ad")) = true /\
  share_consistent (STimes (of_Z q 10) (of_Z q 11) (of_Z q 7))
    (TTimes (CInterp (CSimple [mul_by_g (of_Z q 5); mul_by_g fone])) (CSum (CPedersen [pedersen (of_Z q 6) (of_Z q 7); pedersen fone fzero]))) 4.
Proof. split; [vm_compute; reflexivity|]. split; vm_compute; reflexivity. Qed.

(** C38.  The dealing [d] is arbitrary. *)
Theorem C38_verified_well_formed : forall (X : Oracles) (HX : oracles_ok X) (GO : Grp) (GL : GrpLaws GO) d op threshold dealer receivers ad,
  publicly_verify d op threshold dealer receivers ad = Ok tt ->
  Z.of_nat (length (pts_of (d_cm d))) = threshold /\ 0 < threshold /\
  m_recipients (d_ct d) = Ok receivers /\ m_verify_pop (d_ct d) ad dealer = Ok tt /\
  kind_ok op (d_cm d) /\
  (if op_single op then exists e p pf c, d_ct d = MSingle e p pf c else exists e p pf c, d_ct d = MPair e p pf c) /\
  match op with
  | TRandom => d_proof d = PNone
  | TReshareUnmasked p => d_proof d = PNone /\
      forall l, p = CSimple l -> c_constant_term (d_cm d) = Ok (spec_geval l (node_x dealer))
  | TReshareMasked p => exists z K, d_proof d = PMasked z /\ c_constant_term (d_cm d) = Ok K /\
      eqo_verify z (spec_geval (pts_of p) (node_x dealer)) K ad = Ok tt
  | TTimes l r => exists z K, d_proof d = PProduct z /\ c_constant_term (d_cm d) = Ok K /\
      unwrap l = CSimple (pts_of l) /\ unwrap r = CPedersen (pts_of r) /\
      prod_verify z (spec_geval (pts_of l) (node_x dealer)) (spec_geval (pts_of r) (node_x dealer)) K ad = Ok tt
  | TOther => False
  end.
Proof.
  intros X HX GO GL d op th dealer n ad H. apply (publicly_verify_inv) in H.
  destruct H as (L & N & R & V & K).
  assert (P : 0 < th) by (destruct (pts_of (d_cm d)); [congruence|cbn [length] in L; lia]).
  split; [exact L|]. split; [exact P|]. split; [exact R|]. split; [exact V|].
  assert (C : is_cm (d_cm d) -> c_constant_term (d_cm d) = Ok (nth 0 (pts_of (d_cm d)) gzero)) by (intros I; apply nth_constant_term; assumption).
  unfold kind_ok. destruct op as [|p|p|l r|]; cbn [op_single].
  - destruct K as (U & M & Z0). auto.
  - destruct K as (U & M & Z0 & Up & Np & Kp). split; [exact U|]. split; [exact M|]. split; [exact Z0|].
    intros l E. rewrite C by (left; eauto). rewrite (Kp l E). reflexivity.
  - destruct K as (U & M & Ip & Np & z & Ez & Vz). split; [exact U|]. split; [exact M|]. exists z. eexists.
    split; [exact Ez|]. split; [apply C; left; eauto|exact Vz].
  - destruct K as (U & M & U1 & N1 & U2 & N2 & z & Ez & Vz). split; [exact U|]. split; [exact M|]. exists z. eexists.
    split; [exact Ez|]. split; [apply C; right; eauto|]. auto.
  - contradiction.
Qed.
Theorem C38_receivers_never_panic : forall (X : Oracles) (HX : oracles_ok X) (GO : Grp) (GL : GrpLaws GO) d op threshold dealer receivers ad,
  publicly_verify d op threshold dealer receivers ad = Ok tt ->
  forall i sk pk, 0 <= i < receivers -> private_verify d sk pk ad dealer i = Ok tt \/ private_verify d sk pk ad dealer i = Err.
Proof. intros X HX GO GL d op th dealer n ad H i sk pk Hi. exact (verified_private HX _ _ _ _ _ _ _ _ _ H Hi). Qed.
Print Assumptions C38_verified_well_formed.
Print Assumptions C38_receivers_never_panic.
Example C38_ex : match new_dealing (SReshareUnmasked (of_Z q 10)) [1] 2 [mul_by_g (of_Z q 21); mul_by_g (of_Z q 22)] 4 (str "ad") with
  | Ok d => is_ok (publicly_verify d (TReshareUnmasked (CSimple [mul_by_g (of_Z q 5); mul_by_g fone])) 2 4 2 (str "ad"))
  | _ => false end = true.
Proof. vm_compute. reflexivity. Qed.

(** C39 *)
Theorem C39_product_without_proof_panics : forall (X : Oracles) (GO : Grp) d l r threshold dealer receivers ad,
  is_cm (d_cm d) -> Z.of_nat (length (pts_of (d_cm d))) = threshold -> 0 < threshold ->
  m_check_validity (d_ct d) receivers ad dealer = Ok tt -> d_proof d = PNone ->
  publicly_verify d (TTimes l r) threshold dealer receivers ad = Panic.
Proof.
  intros X GO d l r th dealer n ad I L Hth V E. pose proof (c_points_pts _ I) as P.
  destruct (pts_of (d_cm d)) as [|Q k] eqn:Eq; [cbn [length] in L; lia|].
  rewrite (publicly_verify_pre d _ th dealer n ad Q k P) by (try assumption; lia). rewrite E. reflexivity.
Qed.
Theorem C39_malformed_panics : forall (X : Oracles) (GO : Grp) d op dealer receivers ad,
  (d_cm d = CNil -> forall threshold, publicly_verify d op threshold dealer receivers ad = Panic) /\
  ((d_cm d = CSimple [] \/ d_cm d = CPedersen []) -> publicly_verify d op 0 dealer receivers ad = Panic) /\
  (d_ct d = MNil -> is_cm (d_cm d) -> pts_of (d_cm d) <> [] ->
     publicly_verify d op (Z.of_nat (length (pts_of (d_cm d)))) dealer receivers ad = Panic).
Proof.
  intros X GO d op dealer n ad. split; [|split].
  - intros E th. unfold publicly_verify. rewrite E. reflexivity.
  - intros [E|E]; unfold publicly_verify; rewrite E; reflexivity.
  - intros E I N. unfold publicly_verify. rewrite (proj2 (c_len_ok _ _) (conj I eq_refl)). cbn [bind]. rewrite Z.eqb_refl. cbn [negb].
    unfold c_curve at 1. rewrite (c_points_pts _ I). cbn [bind]. destruct (pts_of (d_cm d)); [congruence|]. cbn [bind]. rewrite E. reflexivity.
Qed.
(** handed over inside its transcript wrapper the previous commitment [l] is
    not looked at: the dealing verifies against every one *)
Theorem C39_wrapped_previous_not_checked : forall (X : Oracles) (HX : oracles_ok X) (GO : Grp) (GL : GrpLaws GO) s seed threshold rc dealer ad d,
  new_dealing (SReshareUnmasked s) seed threshold rc dealer ad = Ok d ->
  forall l, l <> [] ->
  publicly_verify d (TReshareUnmasked (CInterp (CSimple l))) threshold dealer (Z.of_nat (length rc)) ad = Ok tt /\
  publicly_verify d (TReshareUnmasked (CSum (CSimple l))) threshold dealer (Z.of_nat (length rc)) ad = Ok tt.
Proof.
  intros X HX GO GL s seed th rc dealer ad d E l Hl. apply (new_dealing_inv HX) in E; [|discriminate]. destruct E as [R D].
  destruct D as (po & Lp & C & (e & p & pf & c & k & Ec & Ek & Lk & Hc & Lc & V & _) & Ep).
  destruct k as [|P k]; [cbn [length] in Lk; lia|].
  assert (HP : c_points (d_cm d) = Ok (P :: k)) by (rewrite Ek; reflexivity).
  split; (rewrite (publicly_verify_pre d _ th dealer _ ad P k HP Lk (proj1 R) V); rewrite Ep, Ec;
    rewrite (verify_is_simple (d_cm d) (P :: k)) by (try discriminate; rewrite Ek; reflexivity);
    rewrite (verify_is_simple _ l) by (try assumption; reflexivity); reflexivity).
Qed.
(** so the guarantee that C38 gives for a bare commitment fails for a wrapped one *)
Theorem C39_wrapped_resharing_refuted :
  ~ (forall (X : Oracles) (HX : oracles_ok X) (GO : Grp) (GL : GrpLaws GO) d p threshold dealer receivers ad,
       publicly_verify d (TReshareUnmasked p) threshold dealer receivers ad = Ok tt ->
       c_constant_term (d_cm d) = c_eval p dealer).
Proof.
  intros H. specialize (H toyX toyX_ok toyG toyL).
  assert (E : match new_dealing (SReshareUnmasked (of_Z q 10)) [1] 1 [mul_by_g (of_Z q 21)] 4 (str "ad") with
    | Ok d => match publicly_verify d (TReshareUnmasked (CInterp (CSimple [genG]))) 1 4 1 (str "ad"), c_constant_term (d_cm d), c_eval (CInterp (CSimple [genG])) 4 with
              | Ok tt, Ok a, Ok b => negb (feqb a b) | _, _, _ => false end
    | _ => false end = true) by (vm_compute; reflexivity).
  destruct (new_dealing (SReshareUnmasked (of_Z q 10)) [1] 1 [mul_by_g (of_Z q 21)] 4 (str "ad")) as [d| | |]; try discriminate.
  specialize (H d (CInterp (CSimple [genG])) 1 4 1 (str "ad")).
  destruct (publicly_verify d (TReshareUnmasked (CInterp (CSimple [genG]))) 1 4 1 (str "ad")) as [[]| | |]; try discriminate.
  specialize (H eq_refl). rewrite H in E. destruct (c_eval _ 4); try discriminate. rewrite feqb_refl in E. discriminate.
Qed.
Print Assumptions C39_product_without_proof_panics.
Print Assumptions C39_malformed_panics.
Print Assumptions C39_wrapped_previous_not_checked.
Print Assumptions C39_wrapped_resharing_refuted.
(** a product dealing stripped of its proof *)
Example C39_ex : match new_dealing (STimes (of_Z q 10) (of_Z q 11) (of_Z q 7)) [1] 1 [mul_by_g (of_Z q 21)] 4 (str "ad") with
  | Ok d => match publicly_verify (mkdealing (d_ct d) (d_cm d) PNone) (TTimes CNil CNil) 1 4 1 (str "ad") with Panic => true | _ => false end
  | _ => false end = true.
Proof. vm_compute. reflexivity. Qed.

(** C40.  Unmasked resharing: for any dealings, whoever made them *)
Theorem C40_unmasked_preserves : forall (X : Oracles) (GO : Grp) (GL : GrpLaws GO) threshold ds p t,
  new_transcript threshold ds (TReshareUnmasked p) = Ok t ->
  exists P, c_constant_term p = Ok P /\ tr_constant_term t = Ok P.
Proof. intros X GO GL. exact unmasked_constant. Qed.
(** publicly verified dealings, adversarial ones included, are accepted once
    there are enough of them *)
Theorem C40_unmasked_verified_accepted : forall (X : Oracles) (HX : oracles_ok X) (GO : Grp) (GL : GrpLaws GO) threshold ds l receivers ad,
  keys_ok ds -> ds <> [] -> (length l <= length ds)%nat ->
  (forall k d, In (k, d) ds -> publicly_verify d (TReshareUnmasked (CSimple l)) threshold k receivers ad = Ok tt) ->
  exists t, new_transcript threshold ds (TReshareUnmasked (CSimple l)) = Ok t.
Proof.
  intros X HX GO GL th ds l n ad K Hne L H.
  assert (W : forall k d, In (k, d) ds -> Z.of_nat (length (pts_of (d_cm d))) = th /\ pts_of (d_cm d) <> [] /\
    unwrap (d_cm d) = CSimple (pts_of (d_cm d)) /\ l <> [] /\ nth 0 (pts_of (d_cm d)) gzero = spec_geval l (node_x k)).
  { intros k d Hin. pose proof (publicly_verify_inv _ _ _ _ _ _ (H k d Hin)) as (A & B & _ & _ & U & _ & _ & Up & Np & C).
    split; [exact A|]. split; [exact B|]. split; [exact U|]. split; [exact Np|]. apply C. reflexivity. }
  apply new_transcript_ok; try assumption.
  - destruct ds as [|[k d] ds']; [congruence|]. destruct (W k d (or_introl eq_refl)) as (A & B & _).
    destruct (pts_of (d_cm d)); [congruence|cbn [length] in A; lia].
  - intros [k d] Hin. destruct (W k d Hin) as (A & B & U & _). split; [left; eexists; exact U|exact A].
  - split; [reflexivity|]. split; [|split; [exact L|]].
    + destruct ds as [|[k d] ds']; [congruence|]. apply (W k d (or_introl eq_refl)).
    + intros [k d] Hin. apply (W k d Hin).
Qed.
Theorem C40_masked_preserves : forall (X : Oracles) (HX : oracles_ok X) (GO : Grp) (GL : GrpLaws GO) threshold ds p l po mo mask,
  keys_ok ds -> ds <> [] -> unwrap p = CPedersen l -> commits2 l po mo -> (length po <= length l <= length ds)%nat ->
  dealt_by (fun k => SReshareMasked (spec_eval po (node_x k)) (mask k)) threshold ds ->
  exists t, new_transcript threshold ds (TReshareMasked p) = Ok t /\ tr_constant_term t = Ok (mul_by_g (nth 0 po fzero)).
Proof.
  intros X HX GO GL th ds p l po mo mk K Hne U C L D. assert (l = pts_of p) as -> by (unfold pts_of; rewrite U; reflexivity).
  exact (masked_reshare_ok HX th ds p po mo mk K Hne U C L D).
Qed.
Theorem C40_unmasked_honest : forall (X : Oracles) (HX : oracles_ok X) (GO : Grp) (GL : GrpLaws GO) threshold ds p l po,
  keys_ok ds -> ds <> [] -> unwrap p = CSimple l -> l <> [] -> commits l po -> (length l <= length ds)%nat ->
  dealt_by (fun k => SReshareUnmasked (spec_eval po (node_x k))) threshold ds ->
  exists t, new_transcript threshold ds (TReshareUnmasked p) = Ok t /\ tr_constant_term t = Ok (mul_by_g (nth 0 po fzero)).
Proof.
  intros X HX GO GL th ds p l po K Hne U Nl C L D. assert (l = pts_of p) as -> by (unfold pts_of; rewrite U; reflexivity).
  exact (unmasked_reshare_ok HX th ds p po K Hne U Nl C L D).
Qed.
Print Assumptions C40_unmasked_preserves.
Print Assumptions C40_unmasked_verified_accepted.
Print Assumptions C40_masked_preserves.
Print Assumptions C40_unmasked_honest.
Lemma ok_ex {A} (r : res A) : is_ok r = true -> exists a, r = Ok a.
Proof. destruct r; try discriminate. eauto. Qed.
(** secret 5 shared on the line 5 + x with mask 7: dealers 0 and 2 reshare 6 and 8 *)
Example C40_ex : exists ds,
  keys_ok ds /\ ds <> [] /\
  commits2 [pedersen (of_Z q 5) (of_Z q 7); pedersen fone fzero] [of_Z q 5; fone] [of_Z q 7] /\ length ds = 2%nat /\
  dealt_by (fun k => SReshareMasked (spec_eval [of_Z q 5; fone] (node_x k)) (of_Z q 7)) 2 ds.
Proof.
  destruct (ok_ex (new_dealing (SReshareMasked (spec_eval [of_Z q 5; fone] (node_x 0)) (of_Z q 7)) [1] 2 [genG; genG] 0 [])) as [d0 E0]; [vm_compute; reflexivity|].
  destruct (ok_ex (new_dealing (SReshareMasked (spec_eval [of_Z q 5; fone] (node_x 2)) (of_Z q 7)) [2] 2 [genG; genG] 2 [])) as [d2 E2]; [vm_compute; reflexivity|].
  exists [(0, d0); (2, d2)]. split; [|split; [discriminate|split; [|split; [reflexivity|]]]].
  - split; cbn [map fst].
    + repeat constructor; unfold int64_ok; lia.
    + repeat constructor; cbn; intuition discriminate.
  - intros [|[|[|i]]]; apply fe_eq; reflexivity.
  - intros k d [E|[E|[]]]; injection E as <- <-.
    + eexists _, _, _. exact E0.
    + eexists _, _, _. exact E2.
Qed.

(** C41 *)
Theorem C41_resharing_same_constant : forall (X : Oracles) (HX : oracles_ok X) (GO : Grp) (GL : GrpLaws GO),
  (forall th1 th2 ds1 ds2 p t1 t2, new_transcript th1 ds1 (TReshareUnmasked p) = Ok t1 -> new_transcript th2 ds2 (TReshareUnmasked p) = Ok t2 ->
     tr_constant_term t1 = tr_constant_term t2) /\
  (forall th1 th2 ds1 ds2 p l po mo mask t1 t2,
     keys_ok ds1 -> ds1 <> [] -> (length l <= length ds1)%nat -> keys_ok ds2 -> ds2 <> [] -> (length l <= length ds2)%nat ->
     unwrap p = CPedersen l -> commits2 l po mo -> (length po <= length l)%nat ->
     dealt_by (fun k => SReshareMasked (spec_eval po (node_x k)) (mask k)) th1 ds1 ->
     dealt_by (fun k => SReshareMasked (spec_eval po (node_x k)) (mask k)) th2 ds2 ->
     new_transcript th1 ds1 (TReshareMasked p) = Ok t1 -> new_transcript th2 ds2 (TReshareMasked p) = Ok t2 ->
     tr_constant_term t1 = tr_constant_term t2).
Proof.
  intros X HX GO GL. split.
  - intros th1 th2 ds1 ds2 p t1 t2 E1 E2. apply unmasked_constant in E1, E2. destruct E1 as (P & A & B), E2 as (P' & A' & B'). congruence.
  - intros th1 th2 ds1 ds2 p l po mo mk t1 t2 K1 N1 L1 K2 N2 L2 U C L D1 D2 E1 E2.
    destruct (C40_masked_preserves X HX GO GL th1 ds1 p l po mo mk K1 N1 U C (conj L L1) D1) as (t & A & B).
    destruct (C40_masked_preserves X HX GO GL th2 ds2 p l po mo mk K2 N2 U C (conj L L2) D2) as (t' & A' & B'). congruence.
Qed.

(** C42 *)
Theorem C42_product : forall (X : Oracles) (HX : oracles_ok X) (GO : Grp) (GL : GrpLaws GO) threshold ds l r ll lr pl pr mr mask,
  keys_ok ds -> ds <> [] -> unwrap l = CSimple ll -> unwrap r = CPedersen lr -> commits ll pl -> commits2 lr pr mr ->
  (length pl <= length ll)%nat -> (length pr <= length lr)%nat -> (length ll + length lr - 1 <= length ds)%nat ->
  dealt_by (fun k => STimes (spec_eval pl (node_x k)) (spec_eval pr (node_x k)) (mask k)) threshold ds ->
  exists t M, new_transcript threshold ds (TTimes l r) = Ok t /\
    tr_constant_term t = Ok (pedersen (fmul (nth 0 pl fzero) (nth 0 pr fzero)) M).
Proof.
  intros X HX GO GL th ds l r ll lr pl pr mr mk K Hne U U' C C' L1 L2 L D.
  assert (ll = pts_of l) as -> by (unfold pts_of; rewrite U; reflexivity).
  assert (lr = pts_of r) as -> by (unfold pts_of; rewrite U'; reflexivity).
  exact (times_ok HX th ds l r pl pr mr mk K Hne U U' C C' L1 L2 L D).
Qed.
(** fewer dealers are refused *)
Theorem C42_too_few : forall (X : Oracles) (GO : Grp) threshold ds l r ll lr,
  unwrap l = CSimple ll -> unwrap r = CPedersen lr -> Z.of_nat (length ds) < Z.of_nat (length ll) + Z.of_nat (length lr) - 1 ->
  forall t, new_transcript threshold ds (TTimes l r) <> Ok t.
Proof.
  intros X GO th ds l r ll lr U U' L t E. unfold new_transcript in E. apply bind_inv in E. destruct E as (_ & _ & E).
  unfold c_type, c_len, c_points in E. rewrite U, U' in E. cbn [bind] in E. cbn [negb Z.eqb ct_simple ct_pedersen] in E.
  change (1 =? 1) with true in E. change (2 =? 2) with true in E. cbn [negb] in E.
  destruct (Z.ltb_spec (Z.of_nat (length ds)) (Z.of_nat (length ll) + Z.of_nat (length lr) - 1)); [discriminate|lia].
Qed.
(** C41 for products: the value shared is the same for any two dealer sets *)
Theorem C41_product_same_value : forall (X : Oracles) (HX : oracles_ok X) (GO : Grp) (GL : GrpLaws GO) th1 th2 ds1 ds2 l r ll lr pl pr mr mask,
  keys_ok ds1 -> ds1 <> [] -> keys_ok ds2 -> ds2 <> [] -> unwrap l = CSimple ll -> unwrap r = CPedersen lr -> commits ll pl -> commits2 lr pr mr ->
  (length pl <= length ll)%nat -> (length pr <= length lr)%nat ->
  (length ll + length lr - 1 <= length ds1)%nat -> (length ll + length lr - 1 <= length ds2)%nat ->
  dealt_by (fun k => STimes (spec_eval pl (node_x k)) (spec_eval pr (node_x k)) (mask k)) th1 ds1 ->
  dealt_by (fun k => STimes (spec_eval pl (node_x k)) (spec_eval pr (node_x k)) (mask k)) th2 ds2 ->
  exists s t1 t2 m1 m2, new_transcript th1 ds1 (TTimes l r) = Ok t1 /\ new_transcript th2 ds2 (TTimes l r) = Ok t2 /\
    tr_constant_term t1 = Ok (pedersen s m1) /\ tr_constant_term t2 = Ok (pedersen s m2).
Proof.
  intros X HX GO GL th1 th2 ds1 ds2 l r ll lr pl pr mr mk K1 N1 K2 N2 U U' C C' L1 L2 La Lb D1 D2.
  destruct (C42_product X HX GO GL th1 ds1 l r ll lr pl pr mr mk K1 N1 U U' C C' L1 L2 La D1) as (t1 & m1 & A & B).
  destruct (C42_product X HX GO GL th2 ds2 l r ll lr pl pr mr mk K2 N2 U U' C C' L1 L2 Lb D2) as (t2 & m2 & A' & B').
  exists (fmul (nth 0 pl fzero) (nth 0 pr fzero)), t1, t2, m1, m2. auto.
Qed.
(** but, as a point, the combined constant term does depend on who contributed:
    each dealer masks the product with fresh randomness *)
Theorem C41_product_same_point_refuted :
  ~ (forall (X : Oracles) (HX : oracles_ok X) (GO : Grp) (GL : GrpLaws GO) threshold ds1 ds2 l r ll lr pl pr mr mask t1 t2,
       keys_ok ds1 -> keys_ok ds2 -> unwrap l = CSimple ll -> unwrap r = CPedersen lr -> commits ll pl -> commits2 lr pr mr ->
       dealt_by (fun k => STimes (spec_eval pl (node_x k)) (spec_eval pr (node_x k)) (mask k)) threshold ds1 ->
       dealt_by (fun k => STimes (spec_eval pl (node_x k)) (spec_eval pr (node_x k)) (mask k)) threshold ds2 ->
       new_transcript threshold ds1 (TTimes l r) = Ok t1 -> new_transcript threshold ds2 (TTimes l r) = Ok t2 ->
       tr_constant_term t1 = tr_constant_term t2).
Proof.
  intros H. specialize (H toyX toyX_ok toyG toyL 1).
  set (op := TTimes (CSimple [mul_by_g (of_Z q 5)]) (CPedersen [pedersen (of_Z q 6) (of_Z q 7)])) in *.
  assert (G0 : forall r r' : res dealing, match r, r' with
    | Ok d, Ok d' => match new_transcript 1 [(0, d)] op, new_transcript 1 [(1, d')] op with
        | Ok t, Ok t' => match tr_constant_term t, tr_constant_term t' with Ok a, Ok b => negb (feqb a b) | _, _ => false end
        | _, _ => false end
    | _, _ => false end = true -> exists d d' t t', r = Ok d /\ r' = Ok d' /\ new_transcript 1 [(0, d)] op = Ok t /\
       new_transcript 1 [(1, d')] op = Ok t' /\ tr_constant_term t <> tr_constant_term t').
  { intros [d| | |] [d'| | |] E; try discriminate.
    destruct (new_transcript 1 [(0, d)] op) as [t| | |] eqn:T; try discriminate.
    destruct (new_transcript 1 [(1, d')] op) as [t'| | |] eqn:T'; try discriminate.
    exists d, d', t, t'. split; [reflexivity|]. split; [reflexivity|]. split; [exact T|]. split; [exact T'|].
    intros N. rewrite N in E. destruct (tr_constant_term t'); try discriminate. rewrite feqb_refl in E. discriminate. }
  destruct (G0 (new_dealing (STimes (spec_eval [of_Z q 5] (node_x 0)) (spec_eval [of_Z q 6] (node_x 0)) (of_Z q 7)) [1] 1 [genG] 0 [])
    (new_dealing (STimes (spec_eval [of_Z q 5] (node_x 1)) (spec_eval [of_Z q 6] (node_x 1)) (of_Z q 7)) [2] 1 [genG] 1 []))
    as (d & d' & t & t' & E0 & E1 & T & T' & N); [vm_compute; reflexivity|]. clear G0. apply N.
  assert (Kk : forall k (d : dealing), int64_ok k -> keys_ok [(k, d)]) by
    (intros k x Hk; split; cbn [map fst]; [apply Forall_cons; [exact Hk|apply Forall_nil]|apply NoDup_cons; [intros []|apply NoDup_nil]]).
  refine (H [(0, d)] [(1, d')] (CSimple [mul_by_g (of_Z q 5)]) (CPedersen [pedersen (of_Z q 6) (of_Z q 7)])
    [mul_by_g (of_Z q 5)] [pedersen (of_Z q 6) (of_Z q 7)] [of_Z q 5] [of_Z q 6] [of_Z q 7] (fun _ => of_Z q 7) t t'
    (Kk 0 d _) (Kk 1 d' _) eq_refl eq_refl _ _ _ _ T T').
  - unfold int64_ok; lia.
  - unfold int64_ok; lia.
  - intros [|[|i]]; apply fe_eq; reflexivity.
  - intros [|[|i]]; apply fe_eq; reflexivity.
  - intros k a [Ea|[]]. injection Ea as <- <-. eexists _, _, _. exact E0.
  - intros k a [Ea|[]]. injection Ea as <- <-. eexists _, _, _. exact E1.
Qed.
Print Assumptions C41_resharing_same_constant.
Print Assumptions C41_product_same_value.
Print Assumptions C41_product_same_point_refuted.
Print Assumptions C42_product.
Print Assumptions C42_too_few.
(** 5 (shared on the line 5 + x) times 6 (constant sharing, mask 7), two dealers *)
Example C42_ex : exists ds,
  keys_ok ds /\ ds <> [] /\ commits [mul_by_g (of_Z q 5); mul_by_g fone] [of_Z q 5; fone] /\
  commits2 [pedersen (of_Z q 6) (of_Z q 7)] [of_Z q 6] [of_Z q 7] /\ length ds = 2%nat /\
  dealt_by (fun k => STimes (spec_eval [of_Z q 5; fone] (node_x k)) (spec_eval [of_Z q 6] (node_x k)) (of_Z q 7)) 2 ds.
Proof.
  destruct (ok_ex (new_dealing (STimes (spec_eval [of_Z q 5; fone] (node_x 0)) (spec_eval [of_Z q 6] (node_x 0)) (of_Z q 7)) [1] 2 [genG; genG] 0 [])) as [d0 E0]; [vm_compute; reflexivity|].
  destruct (ok_ex (new_dealing (STimes (spec_eval [of_Z q 5; fone] (node_x 2)) (spec_eval [of_Z q 6] (node_x 2)) (of_Z q 7)) [2] 2 [genG; genG] 2 [])) as [d2 E2]; [vm_compute; reflexivity|].
  exists [(0, d0); (2, d2)]. split; [|split; [discriminate|split; [|split; [|split; [reflexivity|]]]]].
  - split; cbn [map fst].
    + repeat constructor; unfold int64_ok; lia.
    + repeat constructor; cbn; intuition discriminate.
  - intros [|[|[|i]]]; apply fe_eq; reflexivity.
  - intros [|[|i]]; apply fe_eq; reflexivity.
  - intros k d [E|[E|[]]]; injection E as <- <-.
    + eexists _, _, _. exact E0.
    + eexists _, _, _. exact E2.
Qed.

(** C43 *)
Theorem C43_reconstruct : forall (X : Oracles) (GO : Grp) (GL : GrpLaws GO) d l os ix,
  d_cm d = CSimple l \/ d_cm d = CPedersen l -> l <> [] -> keys_ok os -> (length l <= length os)%nat ->
  (forall k o, In (k, o) os -> c_check_opening (d_cm d) k o = Ok true) ->
  exists o, reconstruct_share d os ix = Ok o /\ c_check_opening (d_cm d) ix o = Ok true.
Proof.
  intros X GO GL d l os ix U Nl K L H. assert (l = pts_of (d_cm d)) as -> by (destruct U as [-> | ->]; reflexivity).
  destruct (reconstruct_ok d os ix K) as [o E]; try assumption.
  - intros [k o] Hin. apply H. exact Hin.
  - exists o. split; [exact E|]. exact (reconstruct_sound _ _ _ _ E).
Qed.
(** whatever the dealing and the openings *)
Theorem C43_result_opens : forall (X : Oracles) (GO : Grp) (GL : GrpLaws GO) d os ix o,
  reconstruct_share d os ix = Ok o -> c_check_opening (d_cm d) ix o = Ok true.
Proof. intros X GO GL. exact reconstruct_sound. Qed.
Theorem C43_too_few : forall (X : Oracles) (GO : Grp) d os ix n,
  c_len (d_cm d) = Ok n -> Z.of_nat (length os) < n -> reconstruct_share d os ix = Err.
Proof. intros X GO. exact reconstruct_few. Qed.
Theorem C43_simple_unique : forall (X : Oracles) (GO : Grp) (GL : GrpLaws GO) d l os os' ix o o',
  d_cm d = CSimple l -> reconstruct_share d os ix = Ok o -> reconstruct_share d os' ix = Ok o' -> o = o'.
Proof.
  intros X GO GL d l os os' ix o o' U E E'. apply reconstruct_sound in E, E'. rewrite U in E, E'.
  pose proof (check_true_simple (CSimple l) _ _ l eq_refl E) as (A & _ & _). pose proof (check_true_simple (CSimple l) _ _ l eq_refl E') as (A' & _ & _).
  rewrite A, A' in *. f_equal. exact (check_simple_binding _ _ _ _ E E').
Qed.
(** one opening of the wrong kind is refused, however many right ones there are *)
Theorem C43_wrong_kind : forall (X : Oracles) (GO : Grp) d l os ix k v m, l <> [] ->
  (d_cm d = CSimple l -> In (k, OPedersen v m) os -> reconstruct_share d os ix = Err) /\
  (d_cm d = CPedersen l -> In (k, OSimple v) os -> reconstruct_share d os ix = Err).
Proof.
  intros X GO d l os ix k v m Nl. destruct l as [|P l]; [congruence|].
  assert (S : In (k, OPedersen v m) os -> collect_simple os = Err).
  { induction os as [|[i o] os IH]; intros [].
    - rewrite H. reflexivity.
    - cbn [collect_simple]. rewrite (IH H). destruct o; reflexivity. }
  assert (Pd : In (k, OSimple v) os -> collect_pedersen os = Err).
  { clear S. induction os as [|[i o] os IH]; intros [].
    - rewrite H. reflexivity.
    - cbn [collect_pedersen]. rewrite (IH H). destruct o; reflexivity. }
  split; intros E Hin; unfold reconstruct_share; rewrite E; cbn [c_len c_points unwrap bind c_curve];
    (destruct (_ <? _); [reflexivity|]); cbn [bind]; rewrite ?(S Hin), ?(Pd Hin); reflexivity.
Qed.
Print Assumptions C43_wrong_kind.
Print Assumptions C43_reconstruct.
Print Assumptions C43_result_opens.
Print Assumptions C43_too_few.
Print Assumptions C43_simple_unique.
(** the line 5 + x: openings at nodes 0 and 2 (abscissae 1 and 3) *)
Example C43_ex : let d := mkdealing MNil (CSimple [mul_by_g (of_Z q 5); mul_by_g fone]) PNone in
  keys_ok [(0, OSimple (of_Z q 6)); (2, OSimple (of_Z q 8))] /\
  (forall k o, In (k, o) [(0, OSimple (of_Z q 6)); (2, OSimple (of_Z q 8))] -> c_check_opening (d_cm d) k o = Ok true).
Proof.
  split; [split; cbn [map fst]|].
  - repeat constructor; unfold int64_ok; lia.
  - repeat constructor; cbn; intuition discriminate.
  - intros k o [E|[E|[]]]; injection E as <- <-; vm_compute; reflexivity.
Qed.

(** C44 *)
Theorem C44_combined_opening_sound : forall (X : Oracles) (GO : Grp) (GL : GrpLaws GO) tc receiver o,
  (forall ixs os, combine_openings ixs os tc receiver = Ok o -> c_check_opening tc receiver o = Ok true) /\
  (forall ds ad sk pk, from_dealings ds tc ad receiver sk pk = Ok o -> c_check_opening tc receiver o = Ok true) /\
  (forall ds provided ad sk pk, from_dealings_and_openings ds provided tc ad receiver sk pk = Ok o -> c_check_opening tc receiver o = Ok true).
Proof.
  intros X GO GL tc receiver o. split; [|split].
  - intros ixs os. apply combine_sound.
  - intros ds ad sk pk. apply from_dealings_sound.
  - intros ds pr ad sk pk. apply from_dealings_and_openings_sound.
Qed.
(** openings of another kind than the transcript's are refused *)
Theorem C44_wrong_kind : forall (X : Oracles) (GO : Grp) ixs os tc receiver o, (length os <= length ixs)%nat -> In o os ->
  (forall c, tc = CSum c \/ (exists l, tc = CInterp (CPedersen l)) -> (forall v m, o <> OPedersen v m) -> combine_openings ixs os tc receiver = Err) /\
  (forall l, tc = CInterp (CSimple l) -> (forall v, o <> OSimple v) -> combine_openings ixs os tc receiver = Err).
Proof.
  intros X GO ixs os tc receiver o Hl Hin.
  assert (A : (forall v m, o <> OPedersen v m) -> forall v m, sum_pedersen os v m = Err).
  { intros N. clear Hl. induction os as [|a os IH]; [destruct Hin|]. intros v m. destruct Hin as [->|Hin].
    - destruct o; try reflexivity. exfalso. eapply N. reflexivity.
    - cbn [sum_pedersen]. destruct a; try reflexivity. apply IH, Hin. }
  assert (B : (forall v m, o <> OPedersen v m) -> zip_pedersen ixs os = Err).
  { intros N. clear A. revert ixs Hl. induction os as [|a os IH]; [destruct Hin|]. intros [|x ixs] Hl; [cbn in Hl; lia|]. destruct Hin as [->|Hin].
    - cbn [zip_pedersen]. destruct o; try reflexivity. exfalso. eapply N. reflexivity.
    - cbn [zip_pedersen]. rewrite (IH Hin ixs) by (cbn in Hl; lia). destruct a; reflexivity. }
  assert (C : (forall v, o <> OSimple v) -> zip_simple ixs os = Err).
  { intros N. clear A B. revert ixs Hl. induction os as [|a os IH]; [destruct Hin|]. intros [|x ixs] Hl; [cbn in Hl; lia|]. destruct Hin as [->|Hin].
    - cbn [zip_simple]. destruct o; try reflexivity. exfalso. eapply N. reflexivity.
    - cbn [zip_simple]. rewrite (IH Hin ixs) by (cbn in Hl; lia). destruct a; reflexivity. }
  split.
  - intros c [->|[l ->]] N; unfold combine_openings; [rewrite (A N)|rewrite (B N)]; reflexivity.
  - intros l -> N. unfold combine_openings. rewrite (C N). reflexivity.
Qed.
Print Assumptions C44_wrong_kind.
(** completeness: the dealings need not be honest, only verified *)
Theorem C44_verified_dealings_combine : forall (X : Oracles) (HX : oracles_ok X) (GO : Grp) (GL : GrpLaws GO) threshold receivers ds op t ad i sk pk,
  keys_ok ds -> new_transcript threshold ds op = Ok t -> op <> TOther -> 0 < threshold ->
  (forall k d, In (k, d) ds -> publicly_verify d op threshold k receivers ad = Ok tt /\ private_verify d sk pk ad k i = Ok tt) ->
  exists o, from_dealings ds (tr_commitment t) ad i sk pk = Ok o.
Proof.
  intros X HX GO GL th n ds op t ad i sk pk K E No Hth H.
  apply (from_dealings_complete th ds op); try assumption.
  intros [k d] Hin. destruct (H k d Hin) as [A B]. cbn [fst snd]. split; [|exact B].
  apply (C38_verified_well_formed X HX GO GL) in A. apply A.
Qed.
(** and dealings the node cannot open itself are filled in from openings *)
Theorem C44_openings_fill_in : forall (X : Oracles) (HX : oracles_ok X) (GO : Grp) (GL : GrpLaws GO) threshold ds provided op t ad i sk pk,
  keys_ok ds -> new_transcript threshold ds op = Ok t -> op <> TOther -> 0 < threshold ->
  (forall k d, In (k, d) ds -> kind_ok op (d_cm d) /\
     match zlookup k provided with
     | None => private_verify d sk pk ad k i = Ok tt
     | Some os => (exists l, d_cm d = CSimple l \/ d_cm d = CPedersen l) /\ keys_ok os /\ threshold <= Z.of_nat (length os) /\
         forall j o, In (j, o) os -> c_check_opening (d_cm d) j o = Ok true
     end) ->
  exists o, from_dealings_and_openings ds provided (tr_commitment t) ad i sk pk = Ok o.
Proof.
  intros X HX GO GL th ds pr op t ad i sk pk K E No Hth H.
  apply (from_dealings_and_openings_complete th ds pr op); try assumption.
  intros [k d] Hin. destruct (H k d Hin) as [A B]. cbn [fst snd] in *. split; [exact A|].
  destruct (zlookup k pr); [|exact B]. destruct B as (B1 & B2 & B3 & B4). split; [exact B1|]. split; [exact B2|]. split; [exact B3|].
  intros [j o] Hj. apply B4. exact Hj.
Qed.
Print Assumptions C44_combined_opening_sound.
Print Assumptions C44_verified_dealings_combine.
Print Assumptions C44_openings_fill_in.
Example C44_ex : match new_dealing SRandom [1] 2 [mul_by_g (of_Z q 21); mul_by_g (of_Z q 22)] 4 (str "ad"),
                       new_dealing SRandom [2] 2 [mul_by_g (of_Z q 21); mul_by_g (of_Z q 22)] 6 (str "ad") with
  | Ok d, Ok d' => match new_transcript 2 [(4, d); (6, d')] TRandom with
      | Ok t => is_ok (from_dealings [(4, d); (6, d')] (tr_commitment t) (str "ad") 1 (of_Z q 22) (mul_by_g (of_Z q 22)))
      | _ => false end
  | _, _ => false end = true.
Proof. vm_compute. reflexivity. Qed.
