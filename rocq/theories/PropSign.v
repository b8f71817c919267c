(** Properties C50 to C56: signing. *)
From Coq Require Import ZArith Lia Bool String List Ring Field.
From Verif Require Import Base BaseFacts Zmod Fields ModelScalar ProofScalar ModelXmd ModelRo SpecPoly ModelPoly ProofPoly ProofLagrange
  ModelGroup GroupFacts SpecGroup ModelCommit ProofCommit ModelDealing SpecDealing ProofTranscript ModelKey ProofKey PropKey
  ModelSign SpecSign ProofSign Toy.
Import ListNotations.
Open Scope Z_scope.

Section C50.
Context {X : Oracles} (HX : oracles_ok X) {GO : Grp} {GL : GrpLaws GO}.
Lemma honest_signature pa h rnd key presig th shares L KL XL x kappa lambda :
  consistent key presig L KL XL x kappa lambda -> keys_ok shares -> 0 < th -> th <= Z.of_nat (length shares) ->
  Z.of_nat (length L) <= th -> Z.of_nat (length KL) <= th -> Z.of_nat (length XL) <= th ->
  honest_shares pa h rnd key presig L KL XL shares ->
  exists t ch sg, derive_tweak pa (smul x genG) = Ok (t, ch) /\ combine_sig pa h rnd key presig th shares = Ok sg /\
    (sg_r sg <> fzero -> sg_s sg <> fzero ->
      sig_verify sg pa h rnd key presig = Ok tt /\ spec_ecdsa (gadd (smul x genG) (mul_by_g t)) (be_val h) (sg_r sg) (sg_s sg)).
Proof.
  intros (EK & (l & EP) & EL & EKL & EXL) K Hth Hl L1 L2 L3 Hs.
  assert (Sh : exists i s, In (i, s) shares) by (destruct shares as [|[i s] l']; [cbn [length] in Hl; lia|exists i, s; left; reflexivity]).
  destruct Sh as (i & s & Hin). pose proof (Hs i s Hin) as (m1 & m2 & m3 & E0).
  destruct (derive_rho_cases HX h rnd pa key presig _ l _ EP EK) as [D|(t & ch & rz & Et & Erz & Er)].
  { unfold new_share in E0. rewrite D in E0. discriminate. }
  destruct (new_share_inv _ _ _ _ _ _ _ _ _ _ _ _ _ Er E0) as (e & Ee & _). clear m1 m2 m3 E0.
  exists t, ch. eexists. split; [exact Et|].
  split; [apply (combine_honest pa h rnd key presig th shares L KL XL _ e K Hth Hl ltac:(lia) ltac:(lia) ltac:(lia) Er Ee Hs)|].
  cbn [sg_r sg_s ro_rho ro_tweak ro_randomizer]. set (R := gadd (smul kappa genG) (smul rz genG)). set (r := of_Z q (fv (affx R))).
  rewrite EL, EKL, EXL. set (sigma := fmul _ (finv _)). intros Nr Ns.
  assert (Nsig : sigma <> fzero) by (intros Q; apply Ns; rewrite Q; unfold norm; rewrite is_high_zero; reflexivity).
  assert (Nden : fadd (fmul rz lambda) (fmul kappa lambda) <> fzero).
  { intros Q. apply Nsig. unfold sigma. rewrite Q, (finv_zero q eq_refl). ring. }
  assert (Nl : lambda <> fzero) by (intros Q; apply Nden; rewrite Q; ring).
  assert (Nk : fadd kappa rz <> fzero) by (intros Q; apply Nden; assert (E : fadd (fmul rz lambda) (fmul kappa lambda) = fmul (fadd kappa rz) lambda) by ring; rewrite E, Q; ring).
  assert (ER : R = smul (fadd kappa rz) genG) by (unfold R; gring).
  set (y := fadd x t).
  assert (Nu : fadd e (fmul r y) <> fzero).
  { intros Q. apply Nsig. unfold sigma. assert (E : fadd (fmul (fadd e (fmul r t)) lambda) (fmul r (fmul x lambda)) = fmul (fadd e (fmul r y)) lambda) by (unfold y; ring).
    rewrite E, Q. ring. }
  assert (Esig : finv sigma = fdiv (fadd kappa rz) (fadd e (fmul r y))).
  { unfold sigma. assert (E : fadd (fmul (fadd e (fmul r t)) lambda) (fmul r (fmul x lambda)) = fmul (fadd e (fmul r y)) lambda) by (unfold y; ring). rewrite E.
    assert (E' : fadd (fmul rz lambda) (fmul kappa lambda) = fmul (fadd kappa rz) lambda) by ring. rewrite E'. clearbody y r. clear - Nl Nk Nu. field. auto. }
  assert (V : vpoint (gadd (mul_by_g t) (smul x genG)) e r sigma = R).
  { unfold vpoint. rewrite Esig, ER. unfold mul_by_g.
    assert (E : forall w, gadd (smul (fmul e w) genG) (smul (fmul r w) (gadd (smul t genG) (smul x genG))) = smul (fmul w (fadd e (fmul r y))) genG).
    { intros w. unfold y. gring. }
    rewrite E. f_equal. clearbody y r. clear - Nu. field. exact Nu. }
  assert (NR : R <> gzero) by (rewrite ER; intros Q; apply smul_eq0 in Q; destruct Q as [Q|Q]; [contradiction|apply genG_nz; exact Q]).
  assert (V' : vpoint (gadd (mul_by_g t) (smul x genG)) e r (norm sigma) <> gzero /\ affx (vpoint (gadd (mul_by_g t) (smul x genG)) e r (norm sigma)) = affx R).
  { destruct (norm_cases sigma) as [-> | ->].
    - rewrite V. auto.
    - split; [apply vpoint_neg_zero; [exact Nsig|rewrite V; exact NR]|]. rewrite (vpoint_neg _ _ _ _ Nsig), V. apply affx_neg. }
  destruct V' as [V1 V2]. clear V.
  assert (Ee' : e = of_Z q (be_val h)).
  { rewrite hash_to_integer_spec in Ee. destruct (64 <? blen h); [discriminate|]. apply Ok_inj in Ee. congruence. }
  split.
  - apply sig_verify_iff. cbn [sg_r sg_s]. exists e. eexists. exists (smul x genG). cbn [ro_rho ro_tweak ro_presig].
    split; [exact Nr|]. split; [exact Ns|]. split; [exact Ee|]. split; [exact Er|]. split; [reflexivity|]. split; [apply norm_low|].
    split; [exact EK|]. split; [exact V1|exact V2].
  - rewrite (gadd_comm (smul x genG)). subst e. apply vpoint_ecdsa; [exact Nr|exact Ns|exact V1|]. rewrite V2. reflexivity.
Qed.
End C50.

(** C50 *)
Theorem C50_threshold_signature_is_ecdsa :
  forall (X : Oracles) (HX : oracles_ok X) (GO : Grp) (GL : GrpLaws GO) pa h rnd key presig th shares L KL XL x kappa lambda,
  consistent key presig L KL XL x kappa lambda -> keys_ok shares -> 0 < th -> th <= Z.of_nat (length shares) ->
  Z.of_nat (length L) <= th -> Z.of_nat (length KL) <= th -> Z.of_nat (length XL) <= th ->
  honest_shares pa h rnd key presig L KL XL shares -> blen h <= 32 ->
  exists pk ch sg, derive_public_key (ser (smul x genG)) pa = Ok (ser pk, ch) /\
    combine_sig pa h rnd key presig th shares = Ok sg /\
    (sg_r sg <> fzero -> sg_s sg <> fzero ->
      sig_verify sg pa h rnd key presig = Ok tt /\ spec_ecdsa pk (bits2int h) (sg_r sg) (sg_s sg)).
Proof.
  intros X HX GO GL pa h rnd key presig th shares L KL XL x kappa lambda C K H1 H2 L1 L2 L3 Hs Hh.
  destruct (honest_signature HX pa h rnd key presig th shares L KL XL x kappa lambda C K H1 H2 L1 L2 L3 Hs) as (t & ch & sg & Et & Ec & V).
  exists (gadd (smul x genG) (mul_by_g t)), ch, sg. split.
  - destruct (C47_derived_key_is_chain_of_children X HX GO GL _ _ _ _ Et) as (k & o & _ & _ & -> & E). exact E.
  - split; [exact Ec|]. unfold bits2int. rewrite firstn_all2 by (unfold blen in Hh; lia). exact V.
Qed.
Print Assumptions C50_threshold_signature_is_ecdsa.

(** C51 *)
Theorem C51_signature_independent_of_signers :
  forall (X : Oracles) (HX : oracles_ok X) (GO : Grp) (GL : GrpLaws GO) pa h rnd key presig th L KL XL shares shares',
  keys_ok shares -> keys_ok shares' -> 0 < th -> th <= Z.of_nat (length shares) -> th <= Z.of_nat (length shares') ->
  Z.of_nat (length L) <= th -> Z.of_nat (length KL) <= th -> Z.of_nat (length XL) <= th ->
  honest_shares pa h rnd key presig L KL XL shares -> honest_shares pa h rnd key presig L KL XL shares' ->
  exists sg, combine_sig pa h rnd key presig th shares = Ok sg /\ combine_sig pa h rnd key presig th shares' = Ok sg.
Proof.
  intros X HX GO GL pa h rnd key presig th L KL XL sh sh' K K' Hth Hl Hl' L1 L2 L3 Hs Hs'.
  assert (Sh : exists i s, In (i, s) sh) by (destruct sh as [|[i s] l']; [cbn [length] in Hl; lia|exists i, s; left; reflexivity]).
  destruct Sh as (i & s & Hin). pose proof (Hs i s Hin) as (m1 & m2 & m3 & E0).
  assert (D : exists r, derive_rho h rnd pa key presig = Ok r) by (unfold new_share in E0; apply bind_inv in E0; destruct E0 as (r & E & _); eauto).
  destruct D as [r Er]. destruct (new_share_inv _ _ _ _ _ _ _ _ _ _ _ _ _ Er E0) as (e & Ee & _). clear m1 m2 m3 E0.
  eexists. split; [apply (combine_honest pa h rnd key presig th sh L KL XL r e)|apply (combine_honest pa h rnd key presig th sh' L KL XL r e)]; try assumption; lia.
Qed.
Print Assumptions C51_signature_independent_of_signers.

(** test values, not code of /repo: threshold 2, key 7, nonce 11, mask 2 *)
Definition ex_key := mktranscript (CInterp (CSimple [mul_by_g (of_Z q 7); mul_by_g (of_Z q 9)])).
Definition ex_presig := mktranscript (CInterp (CSimple [mul_by_g (of_Z q 11); mul_by_g (of_Z q 4)])).
Definition ex_L := [of_Z q 2; of_Z q 31].
Definition ex_KL := [of_Z q 22; of_Z q 32].
Definition ex_XL := [of_Z q 14; of_Z q 33].
Local Notation ex_share i := (new_share (new_bip32 [1; 2]) (repeat 9 32) [5] ex_key ex_presig
  (OPedersen (spec_eval ex_L (node_x i)) (of_Z q i)) (OPedersen (spec_eval ex_KL (node_x i)) fone) (OPedersen (spec_eval ex_XL (node_x i)) fzero)).
Example C50_ex_shares : is_ok (ex_share 0) && is_ok (ex_share 1) && is_ok (ex_share 5) = true.
Proof. vm_compute. reflexivity. Qed.
Example C50_ex_honest : forall s0 s1, ex_share 0 = Ok s0 -> ex_share 1 = Ok s1 ->
  honest_shares (new_bip32 [1; 2]) (repeat 9 32) [5] ex_key ex_presig ex_L ex_KL ex_XL [(0, s0); (1, s1)] /\ keys_ok [(0, s0); (1, s1)].
Proof.
  intros s0 s1 E0 E1.  split.
  - intros i s [E|[E|[]]]; apply pair_equal_spec in E; destruct E as [<- <-].
    + exists (of_Z q 0), fone, fzero. exact E0.
    + exists (of_Z q 1), fone, fzero. exact E1.
  - split; cbn [map fst].
    + repeat constructor; unfold int64_ok; lia.
    + repeat constructor; cbn [In]; intuition discriminate.
Qed.
Example C50_ex_consistent : consistent ex_key ex_presig ex_L ex_KL ex_XL (of_Z q 7) (of_Z q 11) (of_Z q 2).
Proof.
  split; [reflexivity|]. split; [eexists; reflexivity|].
  split; [|split]; apply fe_eq; vm_compute; reflexivity.
Qed.
(** neither r nor s is zero in this run: r, numerator and denominator are not *)
Example C50_ex_nonzero : match derive_rho (repeat 9 32) [5] (new_bip32 [1; 2]) ex_key ex_presig, hash_to_integer (repeat 9 32) with
  | Ok r, Ok e => negb (feqb (ro_rho r) fzero) &&
      negb (feqb (fadd (fmul (fadd e (fmul (ro_rho r) (ro_tweak r))) (of_Z q 2)) (fmul (ro_rho r) (of_Z q 14))) fzero) &&
      negb (feqb (fadd (fmul (ro_randomizer r) (of_Z q 2)) (of_Z q 22)) fzero)
  | _, _ => false end = true.
Proof. vm_compute. reflexivity. Qed.

(** C52 *)
Theorem C52_exactly_one_of_s_and_minus_s :
  forall (X : Oracles) (GO : Grp) (GL : GrpLaws GO) pa h rnd key presig r s e ro K,
  s <> fzero -> r <> fzero -> hash_to_integer h = Ok e -> derive_rho h rnd pa key presig = Ok ro -> r = ro_rho ro ->
  tr_constant_term key = Ok K ->
  vpoint (gadd (mul_by_g (ro_tweak ro)) K) e r s <> gzero ->
  affx (vpoint (gadd (mul_by_g (ro_tweak ro)) K) e r s) = affx (ro_presig ro) ->
  (sig_verify (mksig r s) pa h rnd key presig = Ok tt <-> is_high s = false) /\
  (sig_verify (mksig r (fneg s)) pa h rnd key presig = Ok tt <-> is_high s = true).
Proof.
  intros X GO GL pa h rnd key presig r s e ro K Ns Nr Ee Er Err EK V1 V2.
  assert (Nn : fneg s <> fzero) by (intros Q; apply Ns; assert (E : s = fneg (fneg s)) by ring; rewrite E, Q; ring).
  split; rewrite sig_verify_iff; cbn [sg_r sg_s]; split.
  - intros (e' & ro' & K' & _ & _ & _ & _ & _ & Hh & _). exact Hh.
  - intros Hh. exists e, ro, K. auto 12.
  - intros (e' & ro' & K' & _ & _ & _ & _ & _ & Hh & _). rewrite (is_high_neg s Ns) in Hh. apply negb_false_iff. exact Hh.
  - intros Hh. exists e, ro, K. split; [exact Nr|]. split; [exact Nn|]. split; [exact Ee|]. split; [exact Er|]. split; [exact Err|].
    split; [rewrite (is_high_neg s Ns), Hh; reflexivity|]. split; [exact EK|]. split; [apply vpoint_neg_zero; assumption|].
    rewrite (vpoint_neg _ _ _ _ Ns), affx_neg. exact V2.
Qed.
(** never both, whatever the signature *)
Theorem C52_negated_signature_rejected :
  forall (X : Oracles) (GO : Grp) (GL : GrpLaws GO) pa h rnd key presig r s,
  sig_verify (mksig r s) pa h rnd key presig = Ok tt -> sig_verify (mksig r (fneg s)) pa h rnd key presig = Err.
Proof.
  intros X GO GL pa h rnd key presig r s H. apply sig_verify_iff in H. cbn [sg_r sg_s] in H.
  destruct H as (e & ro & K & N1 & N2 & Ee & Er & E3 & Hh & _). unfold sig_verify. cbn [sg_r sg_s].
  assert (Nn : fneg s <> fzero) by (intros Q; apply N2; assert (E : s = fneg (fneg s)) by ring; rewrite E, Q; ring).
  rewrite (proj2 (feqb_neq _ _ _) N1), (proj2 (feqb_neq _ _ _) Nn). cbn [orb]. rewrite Ee, bind_Ok, Er, bind_Ok.
  rewrite (is_high_neg s N2), Hh. cbn [negb]. rewrite orb_true_r. reflexivity.
Qed.
Theorem C52_combined_signature_low :
  forall (X : Oracles) (GO : Grp) (GL : GrpLaws GO) pa h rnd key presig th shares sg,
  combine_sig pa h rnd key presig th shares = Ok sg -> 2 * fv (sg_s sg) < q.
Proof.
  intros X GO GL pa h rnd key presig th shares sg H. apply combine_sig_low in H.
  assert (N : ~ (q < 2 * fv (sg_s sg))) by (intros Q; apply is_high_half in Q; congruence).
  assert (O : 2 * fv (sg_s sg) <> q) by (unfold q; lia). lia.
Qed.
Print Assumptions C52_exactly_one_of_s_and_minus_s.
Print Assumptions C52_negated_signature_rejected.
Print Assumptions C52_combined_signature_low.
Example C52_ex : is_high (of_Z q 3) = false /\ is_high (fneg (of_Z q 3)) = true.
Proof. split; vm_compute; reflexivity. Qed.

(** C53 *)
Theorem C53_accepted_signatures_are_ecdsa :
  forall (X : Oracles) (HX : oracles_ok X) (GO : Grp) (GL : GrpLaws GO) pa h rnd key presig sg,
  sig_verify sg pa h rnd key presig = Ok tt ->
  exists K t ch ro, tr_constant_term key = Ok K /\ derive_tweak pa K = Ok (t, ch) /\
    derive_rho h rnd pa key presig = Ok ro /\ sg_r sg = ro_rho ro /\ blen h <= 64 /\
    spec_ecdsa (gadd K (mul_by_g t)) (be_val h) (sg_r sg) (sg_s sg) /\
    derive_public_key (ser K) pa = Ok (ser (gadd K (mul_by_g t)), ch) /\
    (blen h <= 32 -> spec_ecdsa (gadd K (mul_by_g t)) (bits2int h) (sg_r sg) (sg_s sg)).
Proof.
  intros X HX GO GL pa h rnd key presig sg H. apply sig_verify_iff in H.
  destruct H as (e & ro & K & N1 & N2 & Ee & Er & E3 & Hh & EK & N4 & E5).
  pose proof Er as Er'. unfold derive_rho in Er'. apply bind_inv in Er'. destruct Er' as (ps & _ & Er'). rewrite EK, bind_Ok in Er'.
  apply bind_inv in Er'. destruct Er' as ([t ch] & Et & Er'). cbn [fst] in Er'. apply bind_inv in Er'. destruct Er' as (rz & _ & Er').
  rewrite conversion_spec, bind_Ok in Er'. apply Ok_inj in Er'. rewrite <- Er' in E3, E5, N4. cbn [ro_rho ro_tweak ro_presig] in *.
  rewrite hash_to_integer_spec in Ee. destruct (64 <? blen h) eqn:B; [discriminate Ee|]. apply Ok_inj in Ee. subst e. apply Z.ltb_ge in B.
  assert (S : spec_ecdsa (gadd K (mul_by_g t)) (be_val h) (sg_r sg) (sg_s sg)).
  { rewrite gadd_comm. apply vpoint_ecdsa; [exact N1|exact N2|exact N4|]. rewrite E5. symmetry. exact E3. }
  exists K, t, ch, ro. split; [exact EK|]. split; [exact Et|]. split; [exact Er|]. split; [rewrite <- Er'; exact E3|]. split; [assumption|].
  split; [exact S|]. split.
  - destruct (C47_derived_key_is_chain_of_children X HX GO GL _ _ _ _ Et) as (k & o & _ & _ & -> & E). exact E.
  - intros Hb. unfold bits2int. rewrite firstn_all2 by (unfold blen in Hb; lia). exact S.
Qed.
Print Assumptions C53_accepted_signatures_are_ecdsa.

(** shares are made, combined and verified for an unmasked presignature that
    came out of an interpolation, and for nothing else *)
Theorem C53_presignature_kind :
  forall (X : Oracles) (GO : Grp) (GL : GrpLaws GO) pa h rnd key presig,
  (exists l kl xl s, new_share pa h rnd key presig l kl xl = Ok s) \/
  (exists th sh s, combine_sig pa h rnd key presig th sh = Ok s) \/
  (exists s i tl tkl txl, share_verify s pa h rnd i key presig tl tkl txl = Ok tt) \/
  (exists s, sig_verify s pa h rnd key presig = Ok tt) ->
  exists P l, tr_commitment presig = CInterp (CSimple (P :: l)).
Proof.
  intros X GO GL pa h rnd key presig H.
  assert (R : exists r, derive_rho h rnd pa key presig = Ok r).
  { destruct H as [(l & kl & xl & s & H)|[(th & sh & s & H)|[(s & i & tl & tkl & txl & H)|(s & H)]]].
    - unfold new_share in H. apply bind_inv in H. destruct H as (r & H & _). eauto.
    - unfold combine_sig in H. destruct (_ <? th); [discriminate H|]. apply bind_inv in H. destruct H as (r & H & _). eauto.
    - unfold share_verify in H. apply bind_inv in H. destruct H as (r & H & _). eauto.
    - unfold sig_verify in H. destruct (_ || _)%bool; [discriminate H|]. apply bind_inv in H. destruct H as (e & _ & H).
      apply bind_inv in H. destruct H as (r & H & _). eauto. }
  destruct R as (r & R). unfold derive_rho in R. apply bind_inv in R. destruct R as (ps & R & _). unfold presig_point in R.
  destruct (tr_commitment presig) as [| | |c|]; try discriminate R. apply bind_inv in R. destruct R as (ty & _ & R).
  destruct (ty =? ct_simple); [|discriminate R]. destruct c as [l|l|c|c|]; try discriminate R. destruct l as [|P l]; [discriminate R|]. exists P, l. reflexivity.
Qed.
Print Assumptions C53_presignature_kind.

(** C54 *)
(** a share made for any message, path, transcripts and openings passes for
    every signer index, message and transcripts that can be evaluated *)
Theorem C54_every_built_share_accepted :
  forall (X : Oracles) (GO : Grp) (GL : GrpLaws GO) s pa h rnd key presig l kl xl,
  new_share pa h rnd key presig l kl xl = Ok s ->
  forall pa' h' rnd' signer key' presig' tl tkl txl r P1 P2 P3, derive_rho h' rnd' pa' key' presig' = Ok r -> blen h' <= 64 ->
  tr_eval tl signer = Ok P1 -> tr_eval tkl signer = Ok P2 -> tr_eval txl signer = Ok P3 ->
  share_verify s pa' h' rnd' signer key' presig' tl tkl txl = Ok tt.
Proof.
  intros X GO GL s pa h rnd key presig l kl xl H pa' h' rnd' signer key' presig' tl tkl txl r P1 P2 P3 Er Hh E1 E2 E3.
  assert (T : (forall v m, ss_num s <> OPedersenPtr v m) /\ (forall v m, ss_den s <> OPedersenPtr v m)).
  { unfold new_share in H. apply bind_inv in H. destruct H as (r0 & _ & H). apply bind_inv in H. destruct H as (e0 & _ & H).
    apply bind_inv in H. destruct H as (nu & Hn & H). apply bind_inv in H. destruct H as (mu & Hm & H). apply Ok_inj in H. subst s. cbn [ss_num ss_den].
    split; intros v m ->; [clear Hm|clear Hn].
    - destruct xl; try discriminate Hn. destruct (lambda_parts l) as [[? ?]|]; discriminate Hn.
    - destruct kl; try discriminate Hm. destruct (lambda_parts l) as [[? ?]|]; discriminate Hm. }
  destruct T as [T1 T2]. unfold share_verify. rewrite Er, bind_Ok, hash_to_integer_spec. destruct (Z.ltb_spec 64 (blen h')); [lia|].
  rewrite bind_Ok, E1, bind_Ok, E2, bind_Ok, E3, bind_Ok.
  assert (A : forall o P, (forall v m, o <> OPedersenPtr v m) -> match o with OPedersenPtr v m => guard (geqb P (pedersen v m)) | _ => Ok tt end = Ok tt).
  { intros o P N. destruct o; try reflexivity. exfalso. eapply N. reflexivity. }
  rewrite (A _ _ T1), bind_Ok. apply A. exact T2.
Qed.
(** and a correct share that has become a pointer (as after decoding) is
    refused, because the numerator is compared with the wrong commitment *)
Theorem C54_correct_pointer_share_rejected :
  forall (X : Oracles) (GO : Grp) (GL : GrpLaws GO) nv nm den pa h rnd signer key presig tl tkl txl r e P1 P2 P3,
  derive_rho h rnd pa key presig = Ok r -> hash_to_integer h = Ok e ->
  tr_eval tl signer = Ok P1 -> tr_eval tkl signer = Ok P2 -> tr_eval txl signer = Ok P3 ->
  pedersen nv nm = gadd (smul (fadd e (fmul (ro_rho r) (ro_tweak r))) P1) (smul (ro_rho r) P3) ->
  ro_rho r <> fzero -> P2 <> P3 ->
  share_verify (mkshare (OPedersenPtr nv nm) den) pa h rnd signer key presig tl tkl txl = Err.
Proof.
  intros X GO GL nv nm den pa h rnd signer key presig tl tkl txl r e P1 P2 P3 Er Ee E1 E2 E3 Ep Nr Np.
  unfold share_verify. rewrite Er, bind_Ok, Ee, bind_Ok, E1, bind_Ok, E2, bind_Ok, E3, bind_Ok. cbn [ss_num]. rewrite Ep.
  destruct (geqb _ _) eqn:Q; [|reflexivity]. exfalso. apply geqb_iff in Q. apply gadd_cancel_l in Q. apply Np.
  assert (W : forall P, P = smul (finv (ro_rho r)) (smul (ro_rho r) P)).
  { intros P. rewrite <- smul_mul, (finv_l q_prime _ Nr), smul_1. reflexivity. }
  rewrite (W P2), (W P3), Q. reflexivity.
Qed.
(** exactly what is compared: both components with one and the same point, the
    one made from the kappa-lambda transcript where the key-lambda transcript
    belongs *)
Theorem C54_what_is_compared :
  forall (X : Oracles) (GO : Grp) (GL : GrpLaws GO) s pa h rnd signer key presig tl tkl txl r e P1 P2 P3,
  derive_rho h rnd pa key presig = Ok r -> hash_to_integer h = Ok e ->
  tr_eval tl signer = Ok P1 -> tr_eval tkl signer = Ok P2 -> tr_eval txl signer = Ok P3 ->
  (share_verify s pa h rnd signer key presig tl tkl txl = Ok tt <->
   forall v m, ss_num s = OPedersenPtr v m \/ ss_den s = OPedersenPtr v m ->
     gadd (smul v genG) (smul m genH) = gadd (smul (fadd e (fmul (ro_rho r) (ro_tweak r))) P1) (smul (ro_rho r) P2)).
Proof.
  intros X GO GL s pa h rnd signer key presig tl tkl txl r e P1 P2 P3 Er Ee E1 E2 E3.
  unfold share_verify. rewrite Er, bind_Ok, Ee, bind_Ok, E1, bind_Ok, E2, bind_Ok, E3, bind_Ok. cbv zeta.
  set (N := gadd _ (smul (ro_rho r) P2)).
  assert (A : forall o, match o with OPedersenPtr v m => guard (geqb N (pedersen v m)) | _ => Ok tt end = Ok tt <->
    forall v m, o = OPedersenPtr v m -> gadd (smul v genG) (smul m genH) = N).
  { intros o. destruct o; try (split; [intros _ v' m' Q; discriminate Q|reflexivity]). split.
    - intros Q v' m' Hv. unfold guard in Q. destruct (geqb N _) eqn:B; [|discriminate Q]. apply geqb_iff in B. inversion Hv; subst v' m'. symmetry. exact B.
    - intros Q. pose proof (Q _ _ eq_refl) as Q'. unfold guard. assert (B : geqb N (pedersen v m) = true) by (apply geqb_iff; symmetry; exact Q').
      rewrite B. reflexivity. }
  split.
  - intros Q. apply bind_inv in Q. destruct Q as ([] & Q1 & Q2). intros v m [Hv|Hv]; [apply (proj1 (A _) Q1)|apply (proj1 (A _) Q2)]; exact Hv.
  - intros Q. rewrite (proj2 (A (ss_num s))) by (intros v m Hv; apply Q; left; exact Hv). rewrite bind_Ok.
    apply A. intros v m Hv. apply Q. right. exact Hv.
Qed.
Print Assumptions C54_what_is_compared.
(** a correct denominator that has become a pointer is refused too *)
Theorem C54_correct_pointer_denominator_rejected :
  forall (X : Oracles) (GO : Grp) (GL : GrpLaws GO) s dv dm pa h rnd signer key presig tl tkl txl r e P1 P2 P3,
  derive_rho h rnd pa key presig = Ok r -> hash_to_integer h = Ok e ->
  tr_eval tl signer = Ok P1 -> tr_eval tkl signer = Ok P2 -> tr_eval txl signer = Ok P3 ->
  ss_den s = OPedersenPtr dv dm -> gadd (smul dv genG) (smul dm genH) = gadd (smul (ro_randomizer r) P1) P2 ->
  gadd (smul (ro_randomizer r) P1) P2 <> gadd (smul (fadd e (fmul (ro_rho r) (ro_tweak r))) P1) (smul (ro_rho r) P2) ->
  share_verify s pa h rnd signer key presig tl tkl txl <> Ok tt.
Proof.
  intros X GO GL s dv dm pa h rnd signer key presig tl tkl txl r e P1 P2 P3 Er Ee E1 E2 E3 Ed Ep N Q.
  apply N. rewrite <- Ep. apply (proj1 (C54_what_is_compared X GO GL _ _ _ _ _ _ _ _ _ _ _ _ _ _ _ Er Ee E1 E2 E3) Q). right. exact Ed.
Qed.
Print Assumptions C54_correct_pointer_denominator_rejected.
(** test value: the transcript of lambda is the commitment with masks zero *)
Definition ex_tr (l : list Fq) := mktranscript (CInterp (CPedersen (map mul_by_g l))).
Theorem C54_share_verification_refuted :
  ~ (forall (X : Oracles) (HX : oracles_ok X) (GO : Grp) (GL : GrpLaws GO) s pa h rnd signer key presig tl tkl txl r e P1 P3 v m,
       share_verify s pa h rnd signer key presig tl tkl txl = Ok tt ->
       derive_rho h rnd pa key presig = Ok r -> hash_to_integer h = Ok e -> tr_eval tl signer = Ok P1 -> tr_eval txl signer = Ok P3 ->
       ss_num s = OPedersen v m ->
       pedersen v m = gadd (smul (fadd e (fmul (ro_rho r) (ro_tweak r))) P1) (smul (ro_rho r) P3)).
Proof.
  intros H.
  destruct (derive_rho [] [] [] ex_key ex_presig) as [r| | |] eqn:Er;
    [|exfalso; assert (Q : is_ok (derive_rho [] [] [] ex_key ex_presig) = true) by (vm_compute; reflexivity); rewrite Er in Q; discriminate..].
  pose proof (H toyX toyX_ok toyG toyL) as H'. clear H.
  assert (E0 : hash_to_integer [] = Ok (of_Z q 0)) by reflexivity.
  assert (Ev : forall l, l <> [] -> tr_eval (ex_tr l) 0 = Ok (spec_geval (map mul_by_g l) (node_x 0))).
  { intros l Hl. unfold tr_eval, ex_tr, c_eval. cbn [tr_commitment c_points unwrap]. rewrite bind_Ok, eval_points_spec. destruct l; [congruence|reflexivity]. }
  assert (S : forall v m, share_verify (mkshare (OPedersen v m) ONil) [] [] [] 0 ex_key ex_presig (ex_tr [fone]) (ex_tr [fone]) (ex_tr [fone]) = Ok tt).
  { intros v m. unfold share_verify. rewrite Er, bind_Ok, E0, bind_Ok, !Ev by discriminate. reflexivity. }
  assert (A := fun v m => H' (mkshare (OPedersen v m) ONil) [] [] [] 0 ex_key ex_presig (ex_tr [fone]) (ex_tr [fone]) (ex_tr [fone]) r (of_Z q 0)
    _ _ v m (S v m) Er E0 (Ev [fone] ltac:(discriminate)) (Ev [fone] ltac:(discriminate)) eq_refl).
  pose proof (A fzero fzero) as A0. pose proof (A fone fzero) as A1. rewrite <- A1 in A0.
  apply (f_equal fv) in A0. vm_compute in A0. discriminate.
Qed.
Print Assumptions C54_every_built_share_accepted.
Print Assumptions C54_correct_pointer_share_rejected.
Print Assumptions C54_share_verification_refuted.
Example C54_ex : is_ok (tr_eval (ex_tr ex_L) 3) = true /\ is_ok (derive_rho (repeat 9 32) [5] (new_bip32 [1; 2]) ex_key ex_presig) = true.
Proof. split; vm_compute; reflexivity. Qed.

(** C55 *)
Theorem C55_hash_conversion :
  forall h, bytes_ok h ->
  (blen h <= 32 -> hash_to_integer h = Ok (of_Z q (bits2int h))) /\
  (32 < blen h <= 64 -> hash_to_integer h = Ok (of_Z q (bits2int h * 256 ^ (blen h - 32) + be_val (skipn 32 h)))) /\
  (64 < blen h -> hash_to_integer h = Panic).
Proof.
  intros h B. rewrite hash_to_integer_spec. unfold bits2int. split; [|split]; intros H; destruct (Z.ltb_spec 64 (blen h)); try lia.
  - rewrite firstn_all2 by (unfold blen in H; lia). reflexivity.
  - rewrite <- (firstn_skipn 32 h) at 1. rewrite be_val_app. unfold blen at 1. rewrite skipn_length.
    replace (Z.of_nat (length h - 32)) with (blen h - 32) by (unfold blen in *; lia). reflexivity.
  - reflexivity.
Qed.
Theorem C55_point_conversion : forall (X : Oracles) (GO : Grp) (GL : GrpLaws GO) P, exists r, ecdsa_conversion P = Ok r /\ fv r = fv (affx P) mod q.
Proof. intros X GO GL P. exists (of_Z q (fv (affx P))). split; [apply conversion_spec|apply fv_of_Z]. Qed.
(** test values: a 33-byte hash and a key under which (r, 1) is accepted *)
Definition ex_long : bytes := repeat 0 32 ++ [1].
Definition ex_long_key := mktranscript (CInterp (CSimple [of_Z q 98372488575527358598451840508099021824838849726924623433180818659051411631552 : G])).
Theorem C55_long_hash_refuted :
  ~ (forall (X : Oracles) (HX : oracles_ok X) (GO : Grp) (GL : GrpLaws GO) pa h rnd key presig sg K t ch,
       sig_verify sg pa h rnd key presig = Ok tt -> tr_constant_term key = Ok K -> derive_tweak pa K = Ok (t, ch) ->
       spec_ecdsa (gadd K (mul_by_g t)) (bits2int h) (sg_r sg) (sg_s sg)).
Proof.
  intros H.
  assert (I1 : finv (fone : Fq) = fone).
  { assert (E : finv (fone : Fq) = fmul (finv fone) fone) by ring. rewrite E. apply (finv_l q_prime). intros Q. apply (f_equal fv) in Q. vm_compute in Q. discriminate. }
  destruct (derive_rho ex_long [] [] ex_long_key ex_presig) as [r| | |] eqn:Er;
    [|exfalso; assert (Q : is_ok (derive_rho ex_long [] [] ex_long_key ex_presig) = true) by (vm_compute; reflexivity); rewrite Er in Q; discriminate..].
  assert (F : (fv (ro_rho r), fv (ro_tweak r), fv (ro_presig r : Fq)) =
    match derive_rho ex_long [] [] ex_long_key ex_presig with Ok r => (fv (ro_rho r), fv (ro_tweak r), fv (ro_presig r : Fq)) | _ => (0, 0, 0) end)
    by (rewrite Er; reflexivity).
  remember (match derive_rho ex_long [] [] ex_long_key ex_presig with Ok r => (fv (ro_rho r), fv (ro_tweak r), fv (ro_presig r : Fq)) | _ => (0, 0, 0) end) as t0 eqn:Et0.
  vm_compute in Et0. subst t0. apply pair_equal_spec in F. destruct F as [F F3]. apply pair_equal_spec in F. destruct F as [F1 F2].
  assert (R1 : ro_rho r = of_Z q (fv (ro_rho r))) by (symmetry; apply of_Z_fv). rewrite F1 in R1.
  assert (R2 : ro_tweak r = of_Z q (fv (ro_tweak r))) by (symmetry; apply of_Z_fv). rewrite F2 in R2.
  assert (R3 : ro_presig r = of_Z q (fv (ro_presig r : Fq))) by (symmetry; apply of_Z_fv). rewrite F3 in R3.
  clear F1 F2 F3.
  set (rr := ro_rho r) in *.
  assert (Nr : rr <> fzero) by (rewrite R1; intros Q; apply (f_equal fv) in Q; vm_compute in Q; discriminate).
  assert (V : sig_verify (mksig rr fone) [] ex_long [] ex_long_key ex_presig = Ok tt).
  { apply sig_verify_iff. cbn [sg_r sg_s]. exists (of_Z q (be_val ex_long)), r. eexists. split; [exact Nr|].
    split; [intros Q; apply (f_equal fv) in Q; vm_compute in Q; discriminate|]. split; [rewrite hash_to_integer_spec; reflexivity|].
    split; [exact Er|]. split; [reflexivity|]. split; [vm_compute; reflexivity|]. split; [reflexivity|].
    unfold vpoint. rewrite I1, R1, R2, R3. split; [intros Q; apply (f_equal fv) in Q; vm_compute in Q; discriminate|].
    apply fe_eq. vm_compute. reflexivity. }
  pose proof (H toyX toyX_ok toyG toyL [] ex_long [] ex_long_key ex_presig _ _ fzero (repeat 0 32) V eq_refl eq_refl) as S.
  cbn [sg_r sg_s] in S. destruct S as (_ & _ & w & R & Ew & ER & _ & Ex). assert (w = fone) as -> by (rewrite <- Ew; ring).
  rewrite ER, R1 in Ex. vm_compute in Ex. discriminate.
Qed.
Print Assumptions C55_hash_conversion.
Print Assumptions C55_point_conversion.
Print Assumptions C55_long_hash_refuted.
Example C55_ex : 32 < blen ex_long <= 64 /\ bytes_ok ex_long.
Proof. split; [vm_compute; split; [reflexivity|discriminate]|]. repeat constructor; unfold byte_ok; lia. Qed.

(** C56 *)
Theorem C56_zero_denominator_gives_zero_signature :
  forall (X : Oracles) (HX : oracles_ok X) (GO : Grp) (GL : GrpLaws GO) pa h rnd key presig th shares NP DP r,
  keys_ok shares -> 0 < th -> th <= Z.of_nat (length shares) -> derive_rho h rnd pa key presig = Ok r ->
  (length NP <= length shares)%nat -> (length DP <= length shares)%nat ->
  (forall i s, In (i, s) shares -> exists m m', s = mkshare (OPedersen (spec_eval NP (node_x i)) m) (OPedersen (spec_eval DP (node_x i)) m')) ->
  spec_eval DP fzero = fzero ->
  combine_sig pa h rnd key presig th shares = Ok (mksig (ro_rho r) fzero).
Proof.
  intros X HX GO GL pa h rnd key presig th shares NP DP r K H1 H2 Er L1 L2 Hs Z.
  rewrite (combine_sig_on pa h rnd key presig th shares (spec_eval NP) (spec_eval DP) r K H1 H2 Er (isp_spec NP _ L1) (isp_spec DP _ L2) Hs).
  rewrite Z, (finv_zero q eq_refl). f_equal. f_equal. assert (E : fmul (spec_eval NP fzero) fzero = fzero) by ring. rewrite E.
  unfold norm. rewrite is_high_zero. reflexivity.
Qed.
Theorem C56_zero_signature_rejected :
  forall (X : Oracles) (GO : Grp) (GL : GrpLaws GO) r pa h rnd key presig,
  sig_verify (mksig r fzero) pa h rnd key presig = Err /\ sig_verify (mksig fzero r) pa h rnd key presig = Err.
Proof.
  intros X GO GL r pa h rnd key presig. unfold sig_verify. cbn [sg_r sg_s]. rewrite feqb_refl, orb_true_r. split; reflexivity.
Qed.
Print Assumptions C56_zero_denominator_gives_zero_signature.
Print Assumptions C56_zero_signature_rejected.
(** the two denominators 1 and 2 at the nodes 0 and 1 lie on the line through the origin *)
Example C56_ex : spec_eval [of_Z q 0; of_Z q 1] (node_x 0) = of_Z q 1 /\ spec_eval [of_Z q 0; of_Z q 1] (node_x 1) = of_Z q 2 /\
  spec_eval [of_Z q 0; of_Z q 1] fzero = fzero.
Proof. split; [|split]; apply fe_eq; vm_compute; reflexivity. Qed.
