(** C87: what was proved for one dealer, one session and one ciphertext is not
    accepted for another. *)
From Coq Require Import ZArith Lia Bool String List Ring Field.
From Verif Require Import Base BaseFacts Zmod Fields ModelScalar ModelXmd ProofXmd ModelRo SpecRo ProofRo ModelPoly SpecPoly ProofPoly ModelGroup GroupFacts ModelCommit
  ModelZk ProofZk ModelMega ModelDealing ModelComplaint ProofTranscript ProofOracles ProofMega ProofComplaint PropProtocol.
From Verif Require Toy ToyShort.
Import ListNotations.
Open Scope Z_scope.

(** Spec: two different input strings of random oracles, given by the states the
    two verifiers build, on which the oracles' outputs agree.  Such strings are
    computable from what was verified; exhibiting them breaks the hash. *)
Definition clash {X : Oracles} {A} (out : ro -> res A) (r r' : ro) : Prop :=
  exists m m' v, ro_form r = Ok m /\ ro_form r' = Ok m' /\ m <> m' /\ out r = Ok v /\ out r' = Ok v.

(** The public part of a ciphertext: ephemeral key, proof key, proof *)
Definition header {GO : Grp} (c : ciphertext) : option (mtype * G * G * dlog_proof) :=
  match c with MSingle e p pf _ => Some (MTsingle, e, p, pf) | MPair e p pf _ => Some (MTpair, e, p, pf) | MNil => None end.

Section Replay.
Context {X : Oracles} (HX : oracles_ok X) {GO : Grp} {GL : GrpLaws GO}.

Lemma form_of {A} (f : bytes -> res A) r v : (do m <- ro_form r; f m) = Ok v -> exists m, ro_form r = Ok m.
Proof. destruct (ro_form r) as [m| | |]; try discriminate. eauto. Qed.
Lemma scalar_form r v : ro_output_scalar r = Ok v -> exists m, ro_form r = Ok m.
Proof. unfold ro_output_scalar, ro_output_scalars. intros E. apply bind_inv in E. destruct E as (l & E & _). exact (form_of _ _ _ E). Qed.
Lemma bytes_dec (m m' : bytes) : {m = m'} + {m <> m'}.
Proof. apply list_eq_dec, Z.eq_dec. Qed.
Lemma clash_or {A} (out : ro -> res A) r r' v m m' :
  ro_form r = Ok m -> ro_form r' = Ok m' -> out r = Ok v -> out r' = Ok v -> ro_form r = ro_form r' \/ clash out r r'.
Proof.
  intros F F' E E'. destruct (bytes_dec m m') as [<-|N]; [left; congruence|right].
  exists m, m', v. auto.
Qed.
(* stated in this direction the conversion unfolds the left-hand side only *)
Lemma dlog_challenge_eq g h gx hx c1 c2 ad : dlog_challenge g h gx hx c1 c2 ad = ro_output_scalar (dlog_ro g h gx hx c1 c2 ad).
Proof. reflexivity. Qed.
Lemma eqo_challenge_eq g h a b c ad : eqo_challenge g h a b c ad = ro_output_scalar (eqo_ro g h a b c ad).
Proof. reflexivity. Qed.
Lemma prod_challenge_eq g h l r pr c1 c2 ad : prod_challenge g h l r pr c1 c2 ad = ro_output_scalar (prod_ro g h l r pr c1 c2 ad).
Proof. reflexivity. Qed.
Lemma dlog_accepts_at pf g h gx hx ad : dlog_verify pf g h gx hx ad = Ok tt ->
  let '(r1, r2) := dlog_recover g h gx hx pf in ro_output_scalar (dlog_ro g h gx hx r1 r2 ad) = Ok (dl_challenge pf).
Proof.
  unfold dlog_verify. destruct (dlog_recover g h gx hx pf) as [r1 r2]. intros W. apply bind_inv in W. destruct W as (c & C & W).
  apply guard_inv in W. apply feqb_eq in W. subst c. rewrite dlog_challenge_eq in C. exact C.
Qed.
Lemma eqo_accepts_at pf a b ad : eqo_verify pf a b ad = Ok tt ->
  ro_output_scalar (eqo_ro genG genH a b (eqo_recover genH a b pf) ad) = Ok (eo_challenge pf).
Proof.
  unfold eqo_verify. intros W. apply bind_inv in W. destruct W as (c & C & W).
  apply guard_inv in W. apply feqb_eq in W. subst c. rewrite eqo_challenge_eq in C. exact C.
Qed.
Lemma prod_accepts_at pf l r pr ad : prod_verify pf l r pr ad = Ok tt ->
  let '(c1, c2) := prod_recover genH l r pr pf in ro_output_scalar (prod_ro genG genH l r pr c1 c2 ad) = Ok (pr_challenge pf).
Proof.
  unfold prod_verify. destruct (prod_recover genH l r pr pf) as [c1 c2]. intros W. apply bind_inv in W. destruct W as (c & C & W).
  apply guard_inv in W. apply feqb_eq in W. subst c. rewrite prod_challenge_eq in C. exact C.
Qed.
Lemma scalar_clash r r' v : ro_output_scalar r = Ok v -> ro_output_scalar r' = Ok v ->
  ro_form r = ro_form r' \/ clash ro_output_scalar r r'.
Proof.
  intros E E'. destruct (scalar_form _ _ E) as [m F]. destruct (scalar_form _ _ E') as [m' F'].
  exact (clash_or _ _ _ _ _ _ F F' E E').
Qed.
Lemma dlog_binds pf g h gx hx ad g' h' gx' hx' ad' : blen ad <= 255 ->
  dlog_verify pf g h gx hx ad = Ok tt -> dlog_verify pf g' h' gx' hx' ad' = Ok tt ->
  (ad = ad' /\ g = g' /\ h = h' /\ gx = gx' /\ hx = hx') \/
  let '(r1, r2) := dlog_recover g h gx hx pf in let '(r1', r2') := dlog_recover g' h' gx' hx' pf in
  clash ro_output_scalar (dlog_ro g h gx hx r1 r2 ad) (dlog_ro g' h' gx' hx' r1' r2' ad').
Proof.
  intros L V V'. apply dlog_accepts_at in V. apply dlog_accepts_at in V'.
  destruct (dlog_recover g h gx hx pf) as [r1 r2]. destruct (dlog_recover g' h' gx' hx' pf) as [r1' r2'].
  destruct (scalar_clash _ _ _ V V') as [E|C]; [left|right; exact C].
  apply (dlog_form_inj _ _ _ _ _ _ _ _ _ _ _ _ _ _ L) in E. tauto.
Qed.
Lemma point_form r v : ro_output_point r = Ok v -> exists m, ro_form r = Ok m.
Proof. unfold ro_output_point. intros E. exact (form_of _ _ _ E). Qed.
Lemma bytes_form r n v : ro_output_bytes r n = Ok v -> exists m, ro_form r = Ok m.
Proof. unfold ro_output_bytes. intros E. exact (form_of _ _ _ E). Qed.
Lemma pop_binds t t' e p pf k ad k' ad' : blen ad <= 255 ->
  verify_pop t ad k e p pf = Ok tt -> verify_pop t' ad' k' e p pf = Ok tt ->
  (ad = ad' /\ u32 k = u32 k') \/
  clash ro_output_point (pop_ro t ad k e) (pop_ro t' ad' k' e) \/
  exists h h', pop_base t ad k e = Ok h /\ pop_base t' ad' k' e = Ok h' /\
    let '(r1, r2) := dlog_recover genG h e p pf in let '(r1', r2') := dlog_recover genG h' e p pf in
    clash ro_output_scalar (dlog_ro genG h e p r1 r2 ad) (dlog_ro genG h' e p r1' r2' ad').
Proof.
  intros L V V'. unfold verify_pop in V, V'. apply bind_inv in V. destruct V as (h & E & V). apply bind_inv in V'. destruct V' as (h' & E' & V').
  destruct (dlog_binds _ _ _ _ _ _ _ _ _ _ _ L V V') as [(A & _ & B & _)|C].
  - subst h'. unfold pop_base in E, E'. destruct (point_form _ _ E) as [m F]. destruct (point_form _ _ E') as [m' F'].
    destruct (clash_or _ _ _ _ _ _ F F' E E') as [Q|Q]; [|right; left; exact Q].
    left. apply (pop_form_inj _ _ _ _ _ _ _ _ L) in Q. tauto.
  - right. right. exists h, h'. auto.
Qed.
End Replay.

(** No dealing, however made, passes public verification for two different
    dealers or two different sessions unless the hash is broken: the ciphertext's
    header alone ties it down, so neither the contents nor the commitment nor the
    proof nor the operation need be the same *)
Theorem C87_dealing_not_replayed :
  forall (X : Oracles) (GO : Grp) (GL : GrpLaws GO) d d' op op' th th' n n' k k' ad ad' t e p pf,
  header (d_ct d) = Some (t, e, p, pf) -> header (d_ct d') = Some (t, e, p, pf) ->
  0 <= k < 2^32 -> 0 <= k' < 2^32 -> blen ad <= 255 ->
  publicly_verify d op th k n ad = Ok tt -> publicly_verify d' op' th' k' n' ad' = Ok tt ->
  (k = k' /\ ad = ad') \/
  clash ro_output_point (pop_ro t ad k e) (pop_ro t ad' k' e) \/
  exists h h', pop_base t ad k e = Ok h /\ pop_base t ad' k' e = Ok h' /\
    let '(r1, r2) := dlog_recover genG h e p pf in let '(r1', r2') := dlog_recover genG h' e p pf in
    clash ro_output_scalar (dlog_ro genG h e p r1 r2 ad) (dlog_ro genG h' e p r1' r2' ad').
Proof.
  intros X GO GL d d' op op' th th' n n' k k' ad ad' t e p pf H H' K K' L V V'.
  apply public_pop in V. apply public_pop in V'.
  assert (P : forall c k ad, header c = Some (t, e, p, pf) -> m_verify_pop c ad k = Ok tt -> verify_pop t ad k e p pf = Ok tt).
  { intros c k0 ad0 Q W. destruct c; cbn [header m_verify_pop] in Q, W; congruence. }
  apply (P _ _ _ H) in V. apply (P _ _ _ H') in V'.
  destruct (pop_binds _ _ _ _ _ _ _ _ _ L V V') as [(A & B)|C]; [left|right; exact C].
  split; [|exact A]. unfold u32 in B. rewrite !Z.mod_small in B by lia. exact B.
Qed.
Print Assumptions C87_dealing_not_replayed.

(** A complaint accepted twice is about the same ephemeral key, parties and
    session, or the hash is broken *)
Theorem C87_complaint_not_replayed :
  forall (X : Oracles) (HX : oracles_ok X) (GO : Grp) (GL : GrpLaws GO) c d d' k k' i i' pk pk' ad ad',
  0 <= k < 2^32 -> 0 <= k' < 2^32 -> 0 <= i < 2^32 -> 0 <= i' < 2^32 -> blen ad <= 255 ->
  complaint_verify c d k i pk ad = Ok tt -> complaint_verify c d' k' i' pk' ad' = Ok tt ->
  (k = k' /\ i = i' /\ pk = pk' /\ ad = ad' /\ m_eph (d_ct d) = m_eph (d_ct d')) \/
  clash (fun r => ro_output_bytes r 32) (assoc_ro ad i k pk) (assoc_ro ad' i' k' pk') \/
  exists a a' e e', assoc_data ad i k pk = Ok a /\ assoc_data ad' i' k' pk' = Ok a' /\ m_eph (d_ct d) = Ok e /\ m_eph (d_ct d') = Ok e' /\
    let '(r1, r2) := dlog_recover genG e pk (cp_secret c) (cp_proof c) in
    let '(r1', r2') := dlog_recover genG e' pk' (cp_secret c) (cp_proof c) in
    clash ro_output_scalar (dlog_ro genG e pk (cp_secret c) r1 r2 a) (dlog_ro genG e' pk' (cp_secret c) r1' r2' a').
Proof.
  intros X HX GO GL c d d' k k' i i' pk pk' ad ad' K K' I I' L V V'. unfold complaint_verify in V, V'.
  apply bind_inv in V. destruct V as (a & A & V). apply bind_inv in V. destruct V as (e & E & V). apply bind_inv in V. destruct V as ([] & V & _).
  apply bind_inv in V'. destruct V' as (a' & A' & V'). apply bind_inv in V'. destruct V' as (e' & E' & V'). apply bind_inv in V'. destruct V' as ([] & V' & _).
  assert (La : blen a <= 255).
  { unfold assoc_data, ro_output_bytes in A. apply bind_inv in A. destruct A as (m & _ & A). apply (expand_length HX) in A.
    unfold blen. rewrite A. discriminate. }
  destruct (dlog_binds _ _ _ _ _ _ _ _ _ _ _ La V V') as [(Q1 & _ & Q2 & Q3 & _)|C].
  - subst a' e' pk'. unfold assoc_data in A, A'. destruct (bytes_form _ _ _ A) as [m F]. destruct (bytes_form _ _ _ A') as [m' F'].
    destruct (clash_or (fun r => ro_output_bytes r 32) _ _ _ _ _ F F' A A') as [Q|Q]; [|right; left; exact Q].
    left. apply (assoc_form_inj _ _ _ _ _ _ _ _ L) in Q. destruct Q as (Q1 & Q2 & Q3 & _).
    unfold u32 in Q2, Q3. rewrite !Z.mod_small in Q2, Q3 by lia. repeat split; congruence.
  - right. right. exists a, a', e, e'. auto 6.
Qed.
Print Assumptions C87_complaint_not_replayed.

(** A resharing or product proof accepted twice is about the same commitments
    and the same session, or the hash is broken *)
Theorem C87_resharing_proof_not_replayed :
  forall (X : Oracles) (GO : Grp) (GL : GrpLaws GO) pf a b a' b' ad ad', blen ad <= 255 ->
  eqo_verify pf a b ad = Ok tt -> eqo_verify pf a' b' ad' = Ok tt ->
  (a = a' /\ b = b' /\ ad = ad') \/
  clash ro_output_scalar (eqo_ro genG genH a b (eqo_recover genH a b pf) ad) (eqo_ro genG genH a' b' (eqo_recover genH a' b' pf) ad').
Proof.
  intros X GO GL pf a b a' b' ad ad' L V V'. apply eqo_accepts_at in V. apply eqo_accepts_at in V'.
  destruct (scalar_clash _ _ _ V V') as [E|C]; [left|right; exact C].
  apply (eqo_form_inj _ _ _ _ _ _ _ _ _ _ _ _ L) in E. tauto.
Qed.
Theorem C87_product_proof_not_replayed :
  forall (X : Oracles) (GO : Grp) (GL : GrpLaws GO) pf l r m l' r' m' ad ad', blen ad <= 255 ->
  prod_verify pf l r m ad = Ok tt -> prod_verify pf l' r' m' ad' = Ok tt ->
  (l = l' /\ r = r' /\ m = m' /\ ad = ad') \/
  let '(c1, c2) := prod_recover genH l r m pf in let '(c1', c2') := prod_recover genH l' r' m' pf in
  clash ro_output_scalar (prod_ro genG genH l r m c1 c2 ad) (prod_ro genG genH l' r' m' c1' c2' ad').
Proof.
  intros X GO GL pf l r m l' r' m' ad ad' L V V'. apply prod_accepts_at in V. apply prod_accepts_at in V'.
  destruct (prod_recover genH l r m pf) as [c1 c2]. destruct (prod_recover genH l' r' m' pf) as [c1' c2'].
  destruct (scalar_clash _ _ _ V V') as [E|C]; [left|right; exact C].
  apply (prod_form_inj _ _ _ _ _ _ _ _ _ _ _ _ _ _ _ _ L) in E. tauto.
Qed.
Print Assumptions C87_resharing_proof_not_replayed.
Print Assumptions C87_product_proof_not_replayed.

(** Both bounds are needed.  Every dealing verifies alike in all sessions with
    more than 255 bytes of associated data *)
Theorem C87_long_sessions_replay :
  forall (X : Oracles) (GO : Grp) (GL : GrpLaws GO) d op th k n ad ad', 255 < blen ad -> 255 < blen ad' ->
  publicly_verify d op th k n ad = publicly_verify d op th k n ad'.
Proof.
  intros X GO GL d op th k n ad ad' H H'. unfold publicly_verify.
  assert (E : m_check_validity (d_ct d) n ad k = m_check_validity (d_ct d) n ad' k).
  { unfold m_check_validity, m_verify_pop. destruct (d_ct d); try reflexivity; rewrite (verify_pop_ad _ ad ad') by assumption; reflexivity. }
  rewrite E. destruct (c_len (d_cm d)) as [m| | |]; try reflexivity. rewrite !bind_Ok. destruct (negb (m =? th)); [reflexivity|].
  destruct (c_curve (d_cm d)); try reflexivity. rewrite !bind_Ok. destruct (m_check_validity (d_ct d) n ad' k); try reflexivity. rewrite !bind_Ok.
  destruct op; destruct (d_proof d); try reflexivity;
  repeat (match goal with |- bind ?a _ = bind ?a _ => destruct a; [rewrite !bind_Ok|reflexivity|reflexivity|reflexivity] end);
  first [apply eqo_verify_ad; assumption | apply prod_verify_ad; assumption].
Qed.
Print Assumptions C87_long_sessions_replay.

(** and dealers whose indices agree modulo 2^32 share their random dealings
    (common/types.go NodeIndex is a 64-bit integer on the usual platforms) *)
Theorem C87_index_wraps :
  forall (X : Oracles) (GO : Grp) d th k n ad, publicly_verify d TRandom th (k + 2^32) n ad = publicly_verify d TRandom th k n ad.
Proof.
  intros X GO d th k n ad. unfold publicly_verify, m_check_validity, m_verify_pop, verify_pop, pop_base, pop_ro, add_uint32.
  assert (U : u32 (k + 2^32) = u32 k).
  { unfold u32. rewrite <- (Z.mul_1_l (2^32)) at 1. apply Z.mod_add. lia. }
  rewrite U. reflexivity.
Qed.
Print Assumptions C87_index_wraps.
(** so the claim without bounds is false for every hash function and in every
    group; the dealing has its discrete logarithm 0 as ephemeral secret *)
Theorem C87_without_bounds_refuted :
  forall (X : Oracles) (HX : oracles_ok X) (GO : Grp) (GL : GrpLaws GO),
  (exists d ad ad', ad <> ad' /\ publicly_verify d TRandom 1 0 1 ad = Ok tt /\ publicly_verify d TRandom 1 0 1 ad' = Ok tt) /\
  (exists d k k', k <> k' /\ publicly_verify d TRandom 1 k 1 [] = Ok tt /\ publicly_verify d TRandom 1 k' 1 [] = Ok tt).
Proof.
  intros X HX GO GL.
  assert (F : forall ad, exists d, publicly_verify d TRandom 1 0 1 ad = Ok tt).
  { intros ad. destruct (pop_base_total MTpair ad 0 gzero) as [h E].
    destruct (dlog_challenge_total HX genG h gzero gzero (smul fone genG) (smul fone h) ad) as [c C].
    exists (mkdealing (MPair gzero gzero (mkdlog c fone) [(fzero, fzero)]) (CPedersen [gzero]) PNone).
    assert (R : dlog_recover genG h gzero gzero (mkdlog c fone) = (smul fone genG, smul fone h)).
    { unfold dlog_recover, gsub. cbn [dl_challenge dl_response]. rewrite smul_gzero. f_equal; gring. }
    assert (V : dlog_verify (mkdlog c fone) genG h gzero gzero ad = Ok tt).
    { unfold dlog_verify. rewrite R, C. cbn [bind dl_challenge]. rewrite feqb_refl. reflexivity. }
    assert (P : verify_pop MTpair ad 0 gzero gzero (mkdlog c fone) = Ok tt).
    { unfold verify_pop. rewrite E, bind_Ok. exact V. }
    unfold publicly_verify, m_check_validity, m_verify_pop. cbn -[verify_pop]. rewrite P. reflexivity. }
  split.
  - destruct (F (repeat 0 256)) as [d V]. exists d, (repeat 0 256), (repeat 1 256). split; [|split; [exact V|]].
    + intros H. apply (f_equal (fun l => nth 0 l 0)) in H. discriminate H.
    + rewrite <- (C87_long_sessions_replay X GO GL d TRandom 1 0 1 (repeat 0 256) (repeat 1 256)) by reflexivity. exact V.
  - destruct (F []) as [d V]. exists d, 0, (2^32). split; [discriminate|]. split; [exact V|].
    rewrite <- V. exact (C87_index_wraps X GO d 1 0 1 []).
Qed.
Print Assumptions C87_without_bounds_refuted.

(** test values: a dealing and the same ciphertext under another commitment pass
    for dealer 4 and session "ad"; neither another dealer nor another session
    accepts it.  The complaint about a dealing to the wrong key passes where it
    was made and, the toy hash being so weak, in another session as well *)
Import Toy.
Section Ex.
Existing Instance ToyShort.shortX.
Example C87_ex :
  match new_dealing SRandom [1] 2 [mul_by_g (of_Z q 21); mul_by_g (of_Z q 22)] 4 (str "ad") with
  | Ok d => let ok k ad d := is_ok (publicly_verify d TRandom 2 k 2 ad) in
      let d' := mkdealing (d_ct d) (CPedersen [mul_by_g (of_Z q 5); genH]) PNone in
      (ok 4 (str "ad") d && ok 4 (str "ad") d' && negb (ok 5 (str "ad") d) && negb (ok 4 (str "session") d)
       && ok (4 + 2^32) (str "ad") d)%bool
  | _ => false end = true.
Proof. vm_compute. reflexivity. Qed.
End Ex.
Example C87_complaint_ex :
  match new_dealing SRandom [2] 2 [mul_by_g (of_Z q 23); mul_by_g (of_Z q 22)] 6 (str "ad") with
  | Ok d => let pk := mul_by_g (of_Z q 21) in
      match new_complaint (repeat 7 32) d 6 0 (of_Z q 21) pk (str "ad") with
      | Ok c => (is_ok (complaint_verify c d 6 0 pk (str "ad")) && is_ok (complaint_verify c d 6 0 pk (str "session")))%bool
      | _ => false end
  | _ => false end = true.
Proof. vm_compute. reflexivity. Qed.
(** the toy hash is a sum of bytes, so the alternative of a clash is a real one *)
Example C87_clash_ex : clash (fun r => ro_output_bytes r 32) (assoc_ro [1; 2] 0 6 genG) (assoc_ro [2; 1] 0 6 genG).
Proof.
  assert (E : assoc_data [1; 2] 0 6 genG = assoc_data [2; 1] 0 6 genG) by (vm_compute; reflexivity).
  destruct (ProofComplaint.assoc_data_total toyX_ok [1; 2] 0 6 genG) as [h H]. pose proof H as H'. rewrite E in H'. unfold assoc_data in H, H'.
  destruct (bytes_form _ _ _ H) as [m F]. destruct (bytes_form _ _ _ H') as [m' F'].
  exists m, m', h. split; [exact F|]. split; [exact F'|]. split; [|split; [exact H|exact H']].
  intros Q. subst m'. rewrite <- F' in F. apply assoc_form_inj in F; [|discriminate]. destruct F as [F _]. discriminate F.
Qed.
