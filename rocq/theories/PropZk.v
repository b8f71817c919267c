(** Properties C17 to C22. *)
From Coq Require Import ZArith Lia Bool String List Ring Field.
From Verif Require Import Base BaseFacts Zmod Fields ModelScalar ModelXmd ModelRo ModelPoly SpecPoly ProofPoly
  ModelGroup GroupFacts ModelCommit ModelZk ModelMega ModelComplaint ModelSign ProofRand ProofZk ProofOracles.
From Verif Require Import Toy.
Import ListNotations.
Open Scope Z_scope.

(** C17: beyond 255 bytes the associated data does not matter, for any proof *)
Theorem C17_long_ad_ignored : forall (X : Oracles) (GO : Grp) (GL : GrpLaws GO) ad ad', 255 < blen ad -> 255 < blen ad' ->
  (forall pf g h gx hx, dlog_verify pf g h gx hx ad = dlog_verify pf g h gx hx ad') /\
  (forall pf a b, eqo_verify pf a b ad = eqo_verify pf a b ad') /\
  (forall pf l r pr, prod_verify pf l r pr ad = prod_verify pf l r pr ad') /\
  (forall t d e pop pf, verify_pop t ad d e pop pf = verify_pop t ad' d e pop pf).
Proof.
  intros X GO GL ad ad' H H'. repeat split; intros.
  - apply dlog_verify_ad; assumption.
  - apply eqo_verify_ad; assumption.
  - apply prod_verify_ad; assumption.
  - apply verify_pop_ad; assumption.
Qed.
(** an honest proof for one long associated data is one for every other *)
Theorem C17_long_ad_proof_transfers : forall (X : Oracles) (GO : Grp) (GL : GrpLaws GO) ad ad',
  255 < blen ad -> 255 < blen ad' ->
  (forall seed x g h pf, dlog_create seed x g h ad = Ok pf -> dlog_verify pf g h (smul x g) (smul x h) ad' = Ok tt) /\
  (forall seed s m pf, eqo_create seed s m ad = Ok pf -> eqo_verify pf (pedersen s m) (mul_by_g s) ad' = Ok tt) /\
  (forall seed l r rm pm pf, prod_create seed l r rm (fmul l r) pm ad = Ok pf ->
     prod_verify pf (mul_by_g l) (pedersen r rm) (pedersen (fmul l r) pm) ad' = Ok tt).
Proof.
  intros X GO GL ad ad' H H'. repeat split; intros.
  - rewrite <- (dlog_verify_ad pf _ _ _ _ ad ad') by assumption. eapply dlog_complete; eassumption.
  - rewrite <- (eqo_verify_ad pf _ _ ad ad') by assumption. eapply eqo_complete; eassumption.
  - rewrite <- (prod_verify_ad pf _ _ _ ad ad') by assumption. eapply prod_complete; eassumption.
Qed.
(** the claim that associated data is bound fails in every group and for every
    hash function *)
Theorem C17_ad_bound_refuted : forall (X : Oracles) (HX : oracles_ok X) (GO : Grp) (GL : GrpLaws GO),
  exists pf gx hx ad ad', ad <> ad' /\
    dlog_verify pf genG genH gx hx ad = Ok tt /\ dlog_verify pf genG genH gx hx ad' = Ok tt.
Proof.
  intros X HX GO GL.
  destruct (dlog_challenge_total HX genG genH gzero gzero (smul fone genG) (smul fone genH) (repeat 0 256)) as [c E].
  exists (mkdlog c fone), gzero, gzero, (repeat 0 256), (repeat 1 256).
  assert (R : dlog_recover genG genH gzero gzero (mkdlog c fone) = (smul fone genG, smul fone genH)).
  { unfold dlog_recover, gsub. cbn [dl_challenge dl_response]. rewrite smul_gzero. f_equal; gring. }
  assert (V : dlog_verify (mkdlog c fone) genG genH gzero gzero (repeat 0 256) = Ok tt).
  { unfold dlog_verify. rewrite R, E. cbn [bind dl_challenge]. rewrite feqb_refl. reflexivity. }
  split; [|split; [exact V|]].
  - intros H. apply (f_equal (fun l => nth 0 l 0)) in H. discriminate H.
  - rewrite <- (dlog_verify_ad _ _ _ _ _ (repeat 0 256) (repeat 1 256)) by reflexivity. exact V.
Qed.
(** up to 255 bytes the hashed string determines the associated data (and the
    statement and first message) *)
Theorem C17_short_ad_bound : forall (X : Oracles) (GO : Grp) (GL : GrpLaws GO) ad ad', blen ad <= 255 ->
  (forall g h gx hx c1 c2 g' h' gx' hx' c1' c2',
     ro_form (dlog_ro g h gx hx c1 c2 ad) = ro_form (dlog_ro g' h' gx' hx' c1' c2' ad') ->
     ad = ad' /\ (g, h, gx, hx, c1, c2) = (g', h', gx', hx', c1', c2')) /\
  (forall g h a b c g' h' a' b' c',
     ro_form (eqo_ro g h a b c ad) = ro_form (eqo_ro g' h' a' b' c' ad') -> ad = ad' /\ (g, h, a, b, c) = (g', h', a', b', c')) /\
  (forall g h l r pr c1 c2 g' h' l' r' pr' c1' c2',
     ro_form (prod_ro g h l r pr c1 c2 ad) = ro_form (prod_ro g' h' l' r' pr' c1' c2' ad') ->
     ad = ad' /\ (g, h, l, r, pr, c1, c2) = (g', h', l', r', pr', c1', c2')) /\
  (forall t d e t' d' e', ro_form (pop_ro t ad d e) = ro_form (pop_ro t' ad' d' e') ->
     ad = ad' /\ (u32 d, e) = (u32 d', e')) /\
  (forall t d r pk e ss t' d' r' pk' e' ss',
     ro_form (mega_ro t d r ad pk e ss) = ro_form (mega_ro t' d' r' ad' pk' e' ss') ->
     ad = ad' /\ (u32 d, u32 r, pk, e, ss) = (u32 d', u32 r', pk', e', ss')) /\
  (forall r d pk r' d' pk', ro_form (assoc_ro ad r d pk) = ro_form (assoc_ro ad' r' d' pk') ->
     ad = ad' /\ (u32 r, u32 d, pk) = (u32 r', u32 d', pk')).
Proof.
  intros X GO GL ad ad' L. split; [|split; [|split; [|split; [|split]]]]; intros.
  - apply dlog_form_inj in H; [|assumption]. decompose [and] H. subst. split; [reflexivity|congruence].
  - apply eqo_form_inj in H; [|assumption]. decompose [and] H. subst. split; [reflexivity|congruence].
  - apply prod_form_inj in H; [|assumption]. decompose [and] H. subst. split; [reflexivity|congruence].
  - apply pop_form_inj in H; [|assumption]. decompose [and] H. subst. split; [reflexivity|congruence].
  - apply mega_form_inj in H; [|assumption]. decompose [and] H. subst. split; [reflexivity|congruence].
  - apply assoc_form_inj in H; [|assumption]. decompose [and] H. subst. split; [reflexivity|congruence].
Qed.
Print Assumptions C17_long_ad_ignored.
Print Assumptions C17_long_ad_proof_transfers.
Print Assumptions C17_ad_bound_refuted.
Print Assumptions C17_short_ad_bound.
Example C17_ex_long : 255 < blen (repeat 7 300). Proof. reflexivity. Qed.
Example C17_ex_short : blen (str "some associated data") <= 255. Proof. vm_compute. discriminate. Qed.

(** C18: [hashed] lists all uses of the oracle; [oracle] is what they hash *)
Theorem C18_separated : forall (X : Oracles) (GO : Grp) (GL : GrpLaws GO) s s',
  ro_form (oracle s) = ro_form (oracle s') -> kind s = kind s'.
Proof. intros X GO GL. exact forms_same_kind. Qed.
(** spelt out for the two kinds of proof sharing a domain separator, and the third *)
Theorem C18_proofs_never_collide : forall (X : Oracles) (GO : Grp) (GL : GrpLaws GO) g h l r pr c1 c2 ad g' h' a b c ad' g'' h'' gx hx e1 e2 ad'',
  ro_form (prod_ro g h l r pr c1 c2 ad) <> ro_form (eqo_ro g' h' a b c ad') /\
  ro_form (prod_ro g h l r pr c1 c2 ad) <> ro_form (dlog_ro g'' h'' gx hx e1 e2 ad'') /\
  ro_form (eqo_ro g' h' a b c ad') <> ro_form (dlog_ro g'' h'' gx hx e1 e2 ad'').
Proof.
  intros. repeat split; intros E.
  - pose proof (forms_same_kind (HProd g h l r pr c1 c2 ad) (HEqo g' h' a b c ad') E). discriminate.
  - pose proof (forms_same_kind (HProd g h l r pr c1 c2 ad) (HDlog g'' h'' gx hx e1 e2 ad'') E). discriminate.
  - pose proof (forms_same_kind (HEqo g' h' a b c ad') (HDlog g'' h'' gx hx e1 e2 ad'') E). discriminate.
Qed.
Print Assumptions C18_separated.
Print Assumptions C18_proofs_never_collide.
Example C18_ex : exists b, ro_form (oracle (HEqo genG genH genG genH genG (str "ad"))) = Ok b.
Proof. eexists. cbn [oracle]. unfold ro_form. vm_compute. reflexivity. Qed.

(** C19 *)
Theorem C19_dlog_complete : forall (X : Oracles) (GO : Grp) (GL : GrpLaws GO) seed x g h ad pf,
  dlog_create seed x g h ad = Ok pf -> dlog_verify pf g h (smul x g) (smul x h) ad = Ok tt.
Proof. intros X GO GL. exact dlog_complete. Qed.
(** creation only fails to return when the rejection sampler does not stop *)
Theorem C19_dlog_create_succeeds : forall (X : Oracles) (HX : oracles_ok X) (GO : Grp) (GL : GrpLaws GO) seed x g h ad,
  blen seed = 32 -> dlog_create seed x g h ad <> Diverge -> exists pf, dlog_create seed x g h ad = Ok pf.
Proof. intros X HX GO GL seed x g h ad L N. destruct (dlog_create_total HX seed x g h ad L) as [|D]; [assumption|contradiction]. Qed.
Print Assumptions C19_dlog_complete.
Print Assumptions C19_dlog_create_succeeds.
Example C19_ex : is_ok (dlog_create (be_bytes 32 (12345678 * 2^200)) (of_Z q 77) genG genH (str "ad")) = true.
Proof. vm_compute. reflexivity. Qed.

(** C20 *)
Theorem C20_equal_openings_complete : forall (X : Oracles) (GO : Grp) (GL : GrpLaws GO) seed s m ad pf,
  eqo_create seed s m ad = Ok pf -> eqo_verify pf (pedersen s m) (mul_by_g s) ad = Ok tt.
Proof. intros X GO GL. exact eqo_complete. Qed.
Theorem C20_product_complete : forall (X : Oracles) (GO : Grp) (GL : GrpLaws GO) seed l r rm pm ad pf,
  prod_create seed l r rm (fmul l r) pm ad = Ok pf ->
  prod_verify pf (mul_by_g l) (pedersen r rm) (pedersen (fmul l r) pm) ad = Ok tt.
Proof. intros X GO GL. exact prod_complete. Qed.
Theorem C20_create_succeeds : forall (X : Oracles) (HX : oracles_ok X) (GO : Grp) (GL : GrpLaws GO) seed ad, blen seed = 32 ->
  (forall s m, eqo_create seed s m ad <> Diverge -> exists pf, eqo_create seed s m ad = Ok pf) /\
  (forall l r rm pr pm, prod_create seed l r rm pr pm ad <> Diverge -> exists pf, prod_create seed l r rm pr pm ad = Ok pf).
Proof.
  intros X HX GO GL seed ad L. split; intros.
  - destruct (eqo_create_total HX seed s m ad L) as [|D]; [assumption|contradiction].
  - destruct (prod_create_total HX seed l r rm pr pm ad L) as [|D]; [assumption|contradiction].
Qed.
Print Assumptions C20_equal_openings_complete.
Print Assumptions C20_product_complete.
Print Assumptions C20_create_succeeds.
Example C20_ex : is_ok (eqo_create (be_bytes 32 (12345678 * 2^200)) (of_Z q 77) (of_Z q 5) (str "ad")) = true /\
  is_ok (prod_create (be_bytes 32 (12345678 * 2^200)) (of_Z q 7) (of_Z q 11) (of_Z q 5) (of_Z q 77) (of_Z q 6) (str "ad")) = true.
Proof. split; vm_compute; reflexivity. Qed.

(** C21.  The verifiers accept exactly when the challenge is the hash of the
    statement and the first message recovered from the proof ... *)
Theorem C21_verify_iff : forall (X : Oracles) (GO : Grp) ad,
  (forall pf g h gx hx, dlog_verify pf g h gx hx ad = Ok tt <->
     dlog_challenge g h gx hx (gsub (smul (dl_response pf) g) (smul (dl_challenge pf) gx))
       (gsub (smul (dl_response pf) h) (smul (dl_challenge pf) hx)) ad = Ok (dl_challenge pf)) /\
  (forall pf a b, eqo_verify pf a b ad = Ok tt <->
     eqo_challenge genG genH a b (gsub (smul (eo_response pf) genH) (smul (eo_challenge pf) (gsub a b))) ad = Ok (eo_challenge pf)) /\
  (forall pf l r pr, prod_verify pf l r pr ad = Ok tt <->
     prod_challenge genG genH l r pr (gsub (smul (pr_response1 pf) genG) (smul (pr_challenge pf) l))
       (gsub (gadd (smul (pr_response1 pf) r) (smul (pr_response2 pf) genH)) (smul (pr_challenge pf) pr)) ad = Ok (pr_challenge pf)).
Proof.
  intros X GO ad.
  assert (Gd : forall (r : res Fq) c, ((do x <- r; guard (feqb x c)) = Ok tt) <-> r = Ok c).
  { intros [a| | |] c; cbn [bind]; try (split; discriminate). unfold guard. destruct (feqb a c) eqn:E.
    - apply feqb_eq in E. subst. split; reflexivity.
    - split; [discriminate|]. intros H. injection H as ->. rewrite feqb_refl in E. discriminate. }
  assert (Gd' : forall (r : res Fq) c, ((do x <- r; guard (feqb c x)) = Ok tt) <-> r = Ok c).
  { intros [a| | |] c; cbn [bind]; try (split; discriminate). unfold guard. destruct (feqb c a) eqn:E.
    - apply feqb_eq in E. subst. split; reflexivity.
    - split; [discriminate|]. intros H. injection H as ->. rewrite feqb_refl in E. discriminate. }
  split; [|split]; intros.
  - apply Gd.
  - apply Gd'.
  - apply Gd'.
Qed.
(** ... and two transcripts with the same first message and different
    challenges give a witness *)
Theorem C21_dlog_special_soundness : forall (GO : Grp) (GL : GrpLaws GO) g h gx hx (c z c' z' : Fq),
  gsub (smul z g) (smul c gx) = gsub (smul z' g) (smul c' gx) ->
  gsub (smul z h) (smul c hx) = gsub (smul z' h) (smul c' hx) -> c <> c' ->
  let x := fdiv (fsub z z') (fsub c c') in gx = smul x g /\ hx = smul x h.
Proof. intros GO GL g h gx hx c z c' z' E1 E2 N x. split; apply gsub_eq; assumption. Qed.
Theorem C21_equal_openings_special_soundness : forall (GO : Grp) (GL : GrpLaws GO) a b (c z c' z' : Fq),
  gsub (smul z genH) (smul c (gsub a b)) = gsub (smul z' genH) (smul c' (gsub a b)) -> c <> c' ->
  a = gadd b (smul (fdiv (fsub z z') (fsub c c')) genH).
Proof.
  intros GO GL a b c z c' z' E N. exact (eqo_special_sound genH a b (mkeqo c z) (mkeqo c' z') E N).
Qed.
Theorem C21_product_special_soundness : forall (GO : Grp) (GL : GrpLaws GO) l r pr (c z1 z2 c' z1' z2' : Fq),
  gsub (smul z1 genG) (smul c l) = gsub (smul z1' genG) (smul c' l) ->
  gsub (gadd (smul z1 r) (smul z2 genH)) (smul c pr) = gsub (gadd (smul z1' r) (smul z2' genH)) (smul c' pr) -> c <> c' ->
  let x := fdiv (fsub z1 z1') (fsub c c') in let y := fdiv (fsub z2 z2') (fsub c c') in
  l = smul x genG /\ pr = gadd (smul x r) (smul y genH) /\
  (forall v m, r = pedersen v m -> pr = pedersen (fmul x v) (fadd (fmul x m) y)).
Proof.
  intros GO GL l r pr c z1 z2 c' z1' z2' E1 E2 N x y.
  destruct (prod_special_sound genH l r pr (mkprod c z1 z2) (mkprod c' z1' z2')) as [A B].
  - unfold prod_recover, mul_points, mul_by_g. cbn [pr_response1 pr_response2 pr_challenge]. f_equal; assumption.
  - exact N.
  - cbn [pr_response1 pr_response2 pr_challenge] in A, B. split; [exact A|]. split; [exact B|].
    intros v m ->. rewrite B. fold x y. unfold pedersen, mul_points. gring.
Qed.
(** for a false statement each first message admits at most one challenge *)
Theorem C21_false_statement_one_challenge : forall (GO : Grp) (GL : GrpLaws GO),
  (forall g h gx hx, ~ (exists x, gx = smul x g /\ hx = smul x h) -> forall pf pf',
     dlog_recover g h gx hx pf = dlog_recover g h gx hx pf' -> dl_challenge pf = dl_challenge pf') /\
  (forall a b, ~ (exists y, a = gadd b (smul y genH)) -> forall pf pf',
     eqo_recover genH a b pf = eqo_recover genH a b pf' -> eo_challenge pf = eo_challenge pf') /\
  (forall l r pr, ~ (exists x y, l = smul x genG /\ pr = gadd (smul x r) (smul y genH)) -> forall pf pf',
     prod_recover genH l r pr pf = prod_recover genH l r pr pf' -> pr_challenge pf = pr_challenge pf').
Proof.
  intros GO GL. repeat split; intros.
  - destruct (fe_dec q (dl_challenge pf) (dl_challenge pf')) as [|N]; [assumption|exfalso]. apply H.
    destruct (dlog_special_sound g h gx hx pf pf' H0 N) as [A B]. eauto.
  - destruct (fe_dec q (eo_challenge pf) (eo_challenge pf')) as [|N]; [assumption|exfalso]. apply H.
    pose proof (eqo_special_sound genH a b pf pf' H0 N) as A. eauto.
  - destruct (fe_dec q (pr_challenge pf) (pr_challenge pf')) as [|N]; [assumption|exfalso]. apply H.
    destruct (prod_special_sound genH l r pr pf pf' H0 N) as [A B]. eauto.
Qed.
Print Assumptions C21_verify_iff.
Print Assumptions C21_dlog_special_soundness.
Print Assumptions C21_equal_openings_special_soundness.
Print Assumptions C21_product_special_soundness.
Print Assumptions C21_false_statement_one_challenge.
(** the hypotheses are met by the two responses of an honest prover *)
Example C21_ex : forall (GO : Grp) (GL : GrpLaws GO) (x r c c' : Fq),
  gsub (smul (fadd (fmul x c) r) genG) (smul c (smul x genG)) = gsub (smul (fadd (fmul x c') r) genG) (smul c' (smul x genG)).
Proof. intros. unfold gsub. gring. Qed.

(** C22.  The prover's first message and response, for randomness [r] ... *)
Theorem C22_prover : forall (X : Oracles) (GO : Grp) ad,
  (forall seed x g h pf, dlog_create seed x g h ad = Ok pf -> exists r rng,
     (do rn <- seed_rng seed; random_scalar rn) = Ok (r, rng) /\
     dlog_challenge g h (smul x g) (smul x h) (smul r g) (smul r h) ad = Ok (dl_challenge pf) /\
     dl_response pf = fadd (fmul x (dl_challenge pf)) r) /\
  (forall seed s m pf, eqo_create seed s m ad = Ok pf -> exists r rng,
     (do rn <- seed_rng seed; random_scalar rn) = Ok (r, rng) /\
     eqo_challenge genG genH (pedersen s m) (mul_by_g s) (smul r genH) ad = Ok (eo_challenge pf) /\
     eo_response pf = fadd (fmul m (eo_challenge pf)) r) /\
  (forall seed l r rm pr pm pf, prod_create seed l r rm pr pm ad = Ok pf -> exists r1 r2 rng rng',
     (do rn <- seed_rng seed; random_scalar rn) = Ok (r1, rng) /\ random_scalar rng = Ok (r2, rng') /\
     prod_challenge genG genH (smul l genG) (pedersen r rm) (pedersen pr pm) (smul r1 genG)
       (mul_points (pedersen r rm) r1 genH r2) ad = Ok (pr_challenge pf) /\
     pr_response1 pf = fadd (fmul l (pr_challenge pf)) r1 /\
     pr_response2 pf = fadd (fmul (fsub pm (fmul l rm)) (pr_challenge pf)) r2).
Proof.
  intros X GO ad. repeat split; intros.
  - apply dlog_create_shape in H. destruct H as (r & r' & c & A & B & ->). exists r, r'. auto.
  - apply eqo_create_shape in H. destruct H as (r & r' & c & A & B & ->). exists r, r'. auto.
  - apply prod_create_shape in H. destruct H as (r1 & r2 & n1 & n2 & c & A & B & D & ->). exists r1, r2, n1, n2. auto.
Qed.
(** ... where, for a fixed challenge, the response ranges over all scalars
    exactly once ... *)
Theorem C22_response_bijection : forall w c : Fq,
  (forall z, exists r, fadd (fmul w c) r = z /\ forall r', fadd (fmul w c) r' = z -> r' = r).
Proof.
  intros w c z. exists (fsub z (fmul w c)). split; [ring|]. intros r' H. rewrite <- H. ring.
Qed.
(** ... and the first message is what the verifier recovers from challenge and
    response, so (choose c and z, output the recovered message) has the same
    distribution as the prover *)
Theorem C22_first_message_recovered : forall (GO : Grp) (GL : GrpLaws GO) (c r r2 : Fq),
  (forall g h x, dlog_recover g h (smul x g) (smul x h) (mkdlog c (fadd (fmul x c) r)) = (smul r g, smul r h)) /\
  (forall s m, eqo_recover genH (pedersen s m) (mul_by_g s) (mkeqo c (fadd (fmul m c) r)) = smul r genH) /\
  (forall l rr rm pm, prod_recover genH (mul_by_g l) (pedersen rr rm) (pedersen (fmul l rr) pm)
     (mkprod c (fadd (fmul l c) r) (fadd (fmul (fsub pm (fmul l rm)) c) r2)) =
     (smul r genG, mul_points (pedersen rr rm) r genH r2)).
Proof.
  intros GO GL c r r2. repeat split; intros.
  - apply dlog_recover_honest.
  - apply eqo_recover_honest.
  - apply prod_recover_honest.
Qed.
Print Assumptions C22_prover.
Print Assumptions C22_response_bijection.
Print Assumptions C22_first_message_recovered.
