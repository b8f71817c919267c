(** Which cells the memory-level programs of ModelHeapDeal write, for every
    memory and all pointers, meaningful or not. *)
From Coq Require Import ZArith Lia Bool String List.
From Verif Require Import Base BaseFacts Zmod Fields ModelScalar ModelXmd ModelRo ModelPoly ModelGroup ModelCommit ModelZk ModelMega
  ModelDealing ModelComplaint ModelKey ModelSign ModelHeap ModelHeapSign ModelHeapDeal SpecHeap ProofHeap ProofFrame.
Import ListNotations.
Open Scope Z_scope.

Section FrameDeal.
Context {X : Oracles} {GO : Grp} (ws : list ptr) (h0 : heap).
Notation frame := (frame ws h0).
Notation okp := (okp ws h0).
Notation okc := (okc ws h0).
Notation oko := (oko ws h0).

Create HintDb fr discriminated.
Hint Resolve fr_load_s fr_load_p fr_load_q fr_lift : fr.
Hint Resolve fr_s_new fr_p_new fr_q_new fr_s_add fr_s_sub fr_s_mul fr_s_invert fr_s_negate fr_s_assign : fr.
Hint Resolve fr_s_clone fr_s_equal fr_s_is_zero fr_s_is_high fr_p_add fr_p_sub fr_p_double fr_p_clone fr_p_scalar_mul fr_p_equal : fr.
Hint Resolve fr_p_mul_by_node_index fr_p_mul_points fr_p_pedersen fr_p_mul_by_g : fr.
Hint Resolve fr_q_coeff fr_q_non_zero fr_q_evaluate_at fr_q_random_coeffs fr_q_random_with_constant : fr.
Hint Resolve fr_l_at_value fr_l_at_zero fr_l_interpolate_scalar fr_l_interpolate_point : fr.
Hint Resolve fr_hc_points fr_hc_type fr_hc_constant_term fr_h_eval_points fr_hc_eval fr_hc_check_opening fr_hc_simple_create fr_hc_pedersen_create : fr.
Ltac fr_step :=
  match goal with
  | |- ProofFrame.frame _ _ (hret _) _ => apply fr_ret
  | |- ProofFrame.frame _ _ herr _ => apply fr_err
  | |- ProofFrame.frame _ _ hpanic _ => apply fr_panic
  | |- ProofFrame.frame _ _ (hlift _) _ => apply fr_lift
  | |- ProofFrame.frame _ _ (if ?b then _ else _) _ => destruct b
  | |- ProofFrame.frame _ _ (match ?x with _ => _ end) _ => destruct x
  end.
(** a bind whose first part has a recorded fact *)
Ltac bd := lazymatch goal with |- ProofFrame.frame _ _ (hbind _ _) _ => eapply fr_bind; [solve [eauto 3 with fr]|intros ? ?] end.
Ltac go := repeat first [assumption | exact I | bd | fr_step | solve [eauto 3 with fr]].

Lemma fr_hguard b : frame (hguard b) (fun _ => True). Proof. unfold hguard. go. Qed.
Lemma fr_hnth {A} (l : list A) i P : Forall P l -> frame (hnth l i) P.
Proof.
  intros F h E. split; [exact E|]. simpl. unfold nth_or_panic. destruct (nth_error l i) as [b|] eqn:N; [|discriminate].
  intros a [= <-]. rewrite Forall_forall in F. apply F. eapply nth_error_In; eauto.
Qed.
Lemma fr_hindex {A} (l : list A) i P : Forall P l -> frame (hindex l i) P.
Proof. intros F. unfold hindex, index. destruct (i <? 0); [apply fr_panic|]. now apply (fr_hnth l (Z.to_nat i)). Qed.
Lemma fr_hindex_true {A} (l : list A) i : frame (hindex l i) (fun _ => True).
Proof. unfold hindex. apply fr_lift. Qed.
Lemma fr_hattempt {A} (m : M A) P : frame m P -> frame (hattempt m) (fun o => match o with Some a => P a | None => True end).
Proof.
  intros F h E. destruct (F h E) as [E1 Q]. unfold hattempt. destruct (m h) as [h' x]. simpl in *.
  destruct x; simpl; split; try exact E1; try discriminate; intros o [= <-]; auto.
Qed.
Lemma fr_hor_panic {A} (m : M A) P : frame m P -> frame (hor_panic m) P.
Proof.
  intros F h E. destruct (F h E) as [E1 Q]. unfold hor_panic. destruct (m h) as [h' x]. simpl in *.
  destruct x; simpl; split; try exact E1; try discriminate; auto.
Qed.
Lemma fr_p_clone_mul P s : frame (p_clone_mul P s) okp. Proof. unfold p_clone_mul. go. Qed.
Lemma fr_s_random r : frame (s_random r) (fun a => okp (fst a)). Proof. unfold s_random. bd. bd. now apply fr_ret. Qed.
Hint Resolve fr_hguard fr_hindex_true fr_p_clone_mul fr_s_random : fr.

(** ** Proofs *)
Definition okdl (p : hdlog) : Prop := okp (hdl_challenge p) /\ okp (hdl_response p).
Definition okeo (p : heqo) : Prop := okp (heo_challenge p) /\ okp (heo_response p).
Definition okpr (p : hprod) : Prop := okp (hpr_challenge p) /\ okp (hpr_response1 p) /\ okp (hpr_response2 p).
Lemma fr_h_dlog_challenge er g h gx hx c1 c2 ad : frame (h_dlog_challenge er g h gx hx c1 c2 ad) okp.
Proof. unfold h_dlog_challenge. go. Qed.
Lemma fr_h_eqo_challenge g h a b c ad : frame (h_eqo_challenge g h a b c ad) okp.
Proof. unfold h_eqo_challenge. go. Qed.
Lemma fr_h_prod_challenge g h l r pr c1 c2 ad : frame (h_prod_challenge g h l r pr c1 c2 ad) okp.
Proof. unfold h_prod_challenge. go. Qed.
Hint Resolve fr_h_dlog_challenge fr_h_eqo_challenge fr_h_prod_challenge : fr.
Lemma fr_h_dlog_create seed x g h ad : frame (h_dlog_create seed x g h ad) okdl.
Proof. unfold h_dlog_create. repeat bd. apply fr_ret. split; assumption. Qed.
Lemma fr_h_dlog_recover g h gx hx pf : frame (h_dlog_recover g h gx hx pf) (fun _ => True).
Proof. unfold h_dlog_recover. go. Qed.
Hint Resolve fr_h_dlog_create fr_h_dlog_recover : fr.
Lemma fr_h_dlog_verify pf g h gx hx ad : frame (h_dlog_verify pf g h gx hx ad) (fun _ => True).
Proof. unfold h_dlog_verify. go. Qed.
Lemma fr_h_dlog_clone pf : frame (h_dlog_clone pf) okdl.
Proof. unfold h_dlog_clone. bd. bd. apply fr_ret. split; assumption. Qed.
Lemma fr_h_eqo_create seed s m ad : frame (h_eqo_create seed s m ad) okeo.
Proof. unfold h_eqo_create. repeat bd. apply fr_ret. split; assumption. Qed.
Lemma fr_h_eqo_recover h a b pf : frame (h_eqo_recover h a b pf) okp.
Proof. unfold h_eqo_recover. go. Qed.
Hint Resolve fr_h_dlog_verify fr_h_dlog_clone fr_h_eqo_create fr_h_eqo_recover : fr.
Lemma fr_h_eqo_verify pf p s ad : frame (h_eqo_verify pf p s ad) (fun _ => True).
Proof. unfold h_eqo_verify. go. Qed.
Lemma fr_h_eqo_clone pf : frame (h_eqo_clone pf) okeo.
Proof. unfold h_eqo_clone. bd. bd. apply fr_ret. split; assumption. Qed.
Lemma fr_h_prod_create seed l r rm p pm ad : frame (h_prod_create seed l r rm p pm ad) okpr.
Proof. unfold h_prod_create. repeat bd. apply fr_ret. repeat split; assumption. Qed.
Lemma fr_h_prod_recover h l r pr pf : frame (h_prod_recover h l r pr pf) (fun _ => True).
Proof. unfold h_prod_recover. go. Qed.
Hint Resolve fr_h_eqo_verify fr_h_eqo_clone fr_h_prod_create fr_h_prod_recover : fr.
Lemma fr_h_prod_verify pf l r pr ad : frame (h_prod_verify pf l r pr ad) (fun _ => True).
Proof. unfold h_prod_verify. go. Qed.
Lemma fr_h_prod_clone pf : frame (h_prod_clone pf) (fun a => a = pf).
Proof. unfold h_prod_clone. apply fr_ret. now destruct pf. Qed.
Hint Resolve fr_h_prod_verify fr_h_prod_clone : fr.

(** ** Encryption *)
Lemma fr_map' {A B} (f : A -> M B) P l : (forall a, frame (f a) P) -> frame (hmap f l) (Forall P).
Proof. intros F. apply fr_map. auto. Qed.
Lemma fr_h_mega_hash t d r ad pk e s : frame (h_mega_hash t d r ad pk e s) (Forall okp).
Proof. unfold h_mega_hash. bd. bd. bd. bd. apply fr_map'. intros. apply fr_s_new. Qed.
Lemma fr_h_pop_base t ad d e : frame (h_pop_base t ad d e) okp. Proof. unfold h_pop_base. go. Qed.
Hint Resolve fr_h_mega_hash fr_h_pop_base : fr.
Lemma fr_h_verify_pop t ad d e p pf : frame (h_verify_pop t ad d e p pf) (fun _ => True). Proof. unfold h_verify_pop. go. Qed.
Hint Resolve fr_h_verify_pop : fr.
Definition okep (e : heph) : Prop := okp (he_beta e) /\ okp (he_v e) /\ okp (he_pop e) /\ okdl (he_proof e).
Lemma fr_h_eph_and_pop t seed ad d : frame (h_eph_and_pop t seed ad d) okep.
Proof. unfold h_eph_and_pop. repeat bd. apply fr_ret. split; [assumption|]. split; [assumption|]. split; assumption. Qed.
Definition okct (m : hciphertext) : Prop :=
  match m with
  | HMSingle e p pf ct => okp e /\ okp p /\ okdl pf /\ Forall okp ct
  | HMPair e p pf ct => okp e /\ okp p /\ okdl pf /\ Forall (fun c => okp (fst c) /\ okp (snd c)) ct
  | HMNil => True
  end.
Lemma fr_h_encrypt_single seed pl rc d ad : frame (h_encrypt_single seed pl rc d ad) okct.
Proof.
  unfold h_encrypt_single. bd. eapply fr_bind; [apply fr_h_eph_and_pop|intros e (A & B & C & D)].
  eapply fr_bind; [apply fr_map' with (P := okp)|].
  - intros ix. bd. bd. eapply fr_bind; [apply fr_hnth with (P := okp); assumption|intros ? ?]. go.
  - intros cts F. apply fr_ret. repeat split; try assumption; apply D.
Qed.
Lemma fr_h_encrypt_pair seed pl rc d ad : frame (h_encrypt_pair seed pl rc d ad) okct.
Proof.
  unfold h_encrypt_pair. bd. eapply fr_bind; [apply fr_h_eph_and_pop|intros e (A & B & C & D)].
  eapply fr_bind; [apply fr_map' with (P := fun c => okp (fst c) /\ okp (snd c))|].
  - intros ix. bd. bd. eapply fr_bind; [apply fr_hnth with (P := okp); assumption|intros ? ?].
    eapply fr_bind; [apply fr_hnth with (P := okp); assumption|intros ? ?]. bd. bd. apply fr_ret. split; assumption.
  - intros cts F. apply fr_ret. repeat split; try assumption; apply D.
Qed.
Hint Resolve fr_h_encrypt_single fr_h_encrypt_pair : fr.
Lemma fr_h_single_clone e p pf ct : frame (h_single_clone e p pf ct) okct.
Proof.
  unfold h_single_clone. eapply fr_bind; [apply fr_map' with (P := okp); intros; apply fr_s_clone|intros ? ?].
  bd. bd. bd. apply fr_ret. split; [assumption|]. split; [assumption|]. split; assumption.
Qed.
Lemma fr_hm_recipients m : frame (hm_recipients m) (fun _ => True). Proof. unfold hm_recipients. go. Qed.
Lemma fr_hm_eph m : frame (hm_eph m) (fun _ => True). Proof. unfold hm_eph. go. Qed.
Lemma fr_hm_verify_pop m ad d : frame (hm_verify_pop m ad d) (fun _ => True). Proof. unfold hm_verify_pop. go. Qed.
Hint Resolve fr_hm_recipients fr_hm_eph fr_hm_verify_pop : fr.
Lemma fr_hm_check_validity m n ad d : frame (hm_check_validity m n ad d) (fun _ => True). Proof. unfold hm_check_validity. go. Qed.
Lemma fr_hm_verify_is m t : frame (hm_verify_is m t) (fun _ => True). Proof. unfold hm_verify_is. go. Qed.
Hint Resolve fr_hm_check_validity fr_hm_verify_is : fr.
Lemma fr_h_decrypt_single_ss e ct ad d r pk ss : frame (h_decrypt_single_ss e ct ad d r pk ss) okp.
Proof.
  unfold h_decrypt_single_ss. destruct (_ <=? _); [apply fr_err|]. bd. bd. bd.
  eapply fr_bind; [apply fr_hnth with (P := okp); assumption|intros ? ?]. go.
Qed.
Lemma fr_h_decrypt_pair_ss e ct ad d r pk ss : frame (h_decrypt_pair_ss e ct ad d r pk ss) (fun c => okp (fst c) /\ okp (snd c)).
Proof.
  unfold h_decrypt_pair_ss. destruct (_ <=? _); [apply fr_err|]. bd. bd. bd.
  eapply fr_bind; [apply fr_hnth with (P := okp); assumption|intros ? ?]. bd. bd.
  eapply fr_bind; [apply fr_hnth with (P := okp); assumption|intros ? ?]. bd. apply fr_ret. split; assumption.
Qed.
Hint Resolve fr_h_decrypt_single_ss fr_h_decrypt_pair_ss : fr.
Lemma fr_hm_decrypt m ad d r sk pk : frame (hm_decrypt m ad d r sk pk) oko.
Proof. unfold hm_decrypt. bd. destruct m; [|  |apply fr_panic]; bd; bd; apply fr_ret; assumption. Qed.
Hint Resolve fr_hm_decrypt : fr.
Lemma fr_hm_decrypt_and_check m c ad d r sk pk : frame (hm_decrypt_and_check m c ad d r sk pk) oko.
Proof. unfold hm_decrypt_and_check. go. Qed.
Hint Resolve fr_hm_decrypt_and_check : fr.

(** ** Commitments *)
Lemma fr_hc_len c : frame (hc_len c) (fun _ => True). Proof. unfold hc_len. go. Qed.
Lemma fr_hc_curve c : frame (hc_curve c) (fun _ => True). Proof. unfold hc_curve. go. Qed.
Hint Resolve fr_hc_len fr_hc_curve : fr.
Lemma fr_hc_verify_is c t : frame (hc_verify_is c t) (fun _ => True). Proof. unfold hc_verify_is. go. Qed.
Lemma fr_hc_first c : frame (hc_first c) (fun _ => True). Proof. unfold hc_first. go. Qed.
Lemma fr_hc_clone c : frame (hc_clone c) okc.
Proof.
  unfold hc_clone. destruct (hunwrap c); try apply fr_panic;
  (eapply fr_bind; [apply fr_map' with (P := okp); intros; apply fr_p_clone|intros ? ?]; apply fr_ret; assumption).
Qed.
Lemma fr_q_random n r : frame (q_random n r) (fun a => okp (fst a)).
Proof. unfold q_random. destruct (n <? 0); [apply fr_panic|]. bd. bd. now apply fr_ret. Qed.
Hint Resolve fr_hc_verify_is fr_hc_first fr_hc_clone fr_q_random : fr.
Definition okz (z : hzkproof) : Prop := match z with HPNone => True | HPMasked p => okeo p | HPProduct p => okpr p end.
Definition okd (d : hdealing) : Prop := okct (hd_ct d) /\ okc (hd_cm d) /\ okz (hd_proof d).

(** ** Dealings *)
Lemma fr_h_encrypt_and_commit_single po n rc d ad s : frame (h_encrypt_and_commit_single po n rc d ad s) (fun a => okct (fst a) /\ okc (snd a)).
Proof.
  unfold h_encrypt_and_commit_single. eapply fr_bind; [apply fr_map' with (P := okp); intros; go|intros ? ?].
  bd. bd. apply fr_ret. split; assumption.
Qed.
Lemma fr_h_encrypt_and_commit_pair va ma n rc d ad s : frame (h_encrypt_and_commit_pair va ma n rc d ad s) (fun a => okct (fst a) /\ okc (snd a)).
Proof.
  unfold h_encrypt_and_commit_pair. eapply fr_bind; [apply fr_map' with (P := fun _ => True); intros; go|intros ? ?].
  bd. bd. apply fr_ret. split; assumption.
Qed.
Hint Resolve fr_h_encrypt_and_commit_single fr_h_encrypt_and_commit_pair : fr.
Ltac ec L := eapply fr_bind; [apply L|intros ? [? ?]].
Lemma fr_h_new_dealing sh seed t rc d ad : frame (h_new_dealing sh seed t rc d ad) okd.
Proof.
  unfold h_new_dealing. destruct (_ || _); [apply fr_err|]. bd. bd. bd. destruct sh.
  - bd. bd. ec fr_h_encrypt_and_commit_pair. apply fr_ret. repeat split; assumption.
  - bd. ec fr_h_encrypt_and_commit_single. apply fr_ret. repeat split; assumption.
  - bd. ec fr_h_encrypt_and_commit_single. bd. bd. apply fr_ret. split; [assumption|]. split; assumption.
  - bd. bd. bd. bd. eapply fr_bind; [apply fr_hor_panic; apply fr_q_random_with_constant|intros ? ?].
    ec fr_h_encrypt_and_commit_pair. bd. eapply fr_bind; [apply fr_hor_panic; apply fr_h_prod_create|intros ? ?].
    apply fr_ret. split; [assumption|]. split; assumption.
  - apply fr_ret. repeat split.
Qed.
Lemma fr_h_publicly_verify d op t de rc ad : frame (h_publicly_verify d op t de rc ad) (fun _ => True).
Proof.
  unfold h_publicly_verify. bd. destruct (negb _); [apply fr_err|]. bd. bd.
  destruct op, (hd_proof d); go.
Qed.
Lemma fr_h_private_verify d sk pk ad de r : frame (h_private_verify d sk pk ad de r) (fun _ => True).
Proof. unfold h_private_verify. go. Qed.

(** ** Transcripts *)
Lemma fr_h_combine_interp ty t ds : frame (h_combine_interp ty t ds) okc.
Proof.
  unfold h_combine_interp. eapply fr_bind; [apply fr_map' with (P := fun _ => True); intros; go|intros ? ?]. bd. bd.
  eapply fr_bind; [apply fr_map' with (P := okp)|].
  - intros i. eapply fr_bind; [apply fr_map' with (P := fun _ => True); intros; unfold hnth; go|intros ? ?]. go.
  - intros pts F. apply fr_ret. unfold ProofFrame.okc. cbn [hunwrap]. destruct (ty =? ct_simple); [exact F|]. destruct (ty =? ct_pedersen); [exact F|exact I].
Qed.
Lemma fr_h_sum_points : forall acc pts, Forall okp acc -> frame (h_sum_points acc pts) (Forall okp).
Proof.
  induction acc as [|a acc IH]; intros pts F; simpl; [apply fr_ret; constructor|]. destruct pts; [apply fr_panic|]. inversion F; subst.
  bd. eapply fr_bind; [apply IH; assumption|intros ? ?]. apply fr_ret. now constructor.
Qed.
Lemma fr_h_sum_dealings : forall ds acc, Forall okp acc -> frame (h_sum_dealings acc ds) (Forall okp).
Proof.
  induction ds as [|[i d] ds IH]; intros acc F; simpl; [now apply fr_ret|]. bd. destruct (negb _); [apply fr_err|]. bd.
  eapply fr_bind; [apply fr_h_sum_points; exact F|intros ? ?]. now apply IH.
Qed.
Lemma fr_h_check_lengths t : forall ds, frame (h_check_lengths ds t) (fun _ => True).
Proof. induction ds as [|[i d] ds IH]; simpl; [go|]. bd. destruct (negb _); [apply fr_err|exact IH]. Qed.
Hint Resolve fr_h_combine_interp fr_h_check_lengths : fr.
Lemma fr_h_new_transcript t ds op : frame (h_new_transcript t ds op) okc.
Proof.
  unfold h_new_transcript. bd. destruct op.
  - bd. eapply fr_bind; [apply fr_map' with (P := okp); intros; apply fr_p_new|intros ? ?].
    eapply fr_bind; [apply fr_h_sum_dealings; assumption|intros ? ?]. now apply fr_ret.
  - go.
  - go.
  - go.
  - apply fr_ret. exact I.
Qed.

(** ** Openings *)
Lemma fr_h_collect_simple : forall os, frame (h_collect_simple os) (fun _ => True).
Proof. induction os as [|[i o] os IH]; simpl; [go|]. destruct o; try exact IH; [|apply fr_err]. eapply fr_bind; [exact IH|intros ? ?]. go. Qed.
Lemma fr_h_collect_pedersen : forall os, frame (h_collect_pedersen os) (fun _ => True).
Proof. induction os as [|[i o] os IH]; simpl; [go|]. destruct o; try exact IH; [apply fr_err|]. eapply fr_bind; [exact IH|intros ? ?]. go. Qed.
Hint Resolve fr_h_collect_simple fr_h_collect_pedersen : fr.
Lemma fr_consistent c i o : oko o -> frame (hc_return_if_consistent c i o) oko.
Proof. intros O. eapply fr_mono; [|apply fr_hc_return_if_consistent]. now intros a ->. Qed.
Lemma fr_h_reconstruct_share d os ix : frame (h_reconstruct_share d os ix) oko.
Proof.
  unfold h_reconstruct_share. bd. destruct (_ <? _); [apply fr_err|]. bd. bd.
  eapply fr_bind with (P := oko); [|intros; now apply fr_consistent].
  destruct (hd_cm d); try (apply fr_ret; exact I).
  - bd. bd. bd. now apply fr_ret.
  - bd. bd. bd. bd. apply fr_ret. split; assumption.
Qed.
Lemma fr_h_sum_pedersen : forall os v m, okp v -> okp m -> frame (h_sum_pedersen os v m) oko.
Proof.
  induction os as [|o os IH]; intros v m V O; simpl; [apply fr_ret; split; assumption|]. destruct o; try apply fr_err.
  bd. bd. apply IH; assumption.
Qed.
Lemma fr_h_zip_simple : forall os ixs, frame (h_zip_simple ixs os) (fun _ => True).
Proof. induction os as [|o os IH]; intros ixs; [destruct ixs; simpl; go|]. destruct ixs; simpl; [go|]. destruct o; try apply fr_err. eapply fr_bind; [apply IH|intros ? ?]. go. Qed.
Lemma fr_h_zip_pedersen : forall os ixs, frame (h_zip_pedersen ixs os) (fun _ => True).
Proof. induction os as [|o os IH]; intros ixs; [destruct ixs; simpl; go|]. destruct ixs; simpl; [go|]. destruct o; try apply fr_err. eapply fr_bind; [apply IH|intros ? ?]. go. Qed.
Hint Resolve fr_h_zip_simple fr_h_zip_pedersen : fr.
Lemma fr_h_combine_openings ixs os tc r : frame (h_combine_openings ixs os tc r) oko.
Proof.
  unfold h_combine_openings. eapply fr_bind with (P := oko); [|intros; now apply fr_consistent].
  destruct tc as [| |c|c|]; try (apply fr_ret; exact I).
  - bd. bd. now apply fr_h_sum_pedersen.
  - destruct c; try (apply fr_ret; exact I).
    + bd. bd. bd. now apply fr_ret.
    + bd. bd. bd. bd. apply fr_ret. split; assumption.
Qed.
Lemma fr_h_from_dealings ds tc ad r sk pk : frame (h_from_dealings ds tc ad r sk pk) oko.
Proof.
  unfold h_from_dealings. eapply fr_bind; [apply fr_map' with (P := oko); intros; apply fr_hm_decrypt_and_check|intros ? ?].
  apply fr_h_combine_openings.
Qed.
Lemma fr_h_from_dealings_and_openings ds pr tc ad r sk pk : frame (h_from_dealings_and_openings ds pr tc ad r sk pk) oko.
Proof.
  unfold h_from_dealings_and_openings. eapply fr_bind; [apply fr_map' with (P := oko)|intros ? ?; apply fr_h_combine_openings].
  intros kd. destruct (zlookup _ _); [apply fr_h_reconstruct_share|apply fr_hm_decrypt_and_check].
Qed.

(** ** Complaints *)
Definition okcp (c : hcomplaint) : Prop := okdl (hcp_proof c) /\ okp (hcp_secret c).
Lemma fr_h_new_complaint seed d de r sk pk ad : frame (h_new_complaint seed d de r sk pk ad) okcp.
Proof. unfold h_new_complaint. repeat bd. apply fr_ret. split; assumption. Qed.
Lemma fr_h_complaints_loop ad r sk pk seed : forall ds, frame (h_complaints_loop ds ad r sk pk seed) (Forall (fun e => okcp (snd e))).
Proof.
  induction ds as [|[i d] ds IH]; simpl; [apply fr_ret; constructor|].
  eapply fr_bind; [apply fr_hattempt; apply fr_hm_decrypt_and_check|intros o ?]. destruct o; [exact IH|]. bd.
  eapply fr_bind; [apply fr_h_new_complaint|intros ? ?]. eapply fr_bind; [exact IH|intros ? ?]. apply fr_ret. now constructor.
Qed.
Lemma fr_h_generate_complaints ds ad r sk pk seed : frame (h_generate_complaints ds ad r sk pk seed) (Forall (fun e => okcp (snd e))).
Proof. unfold h_generate_complaints. eapply fr_bind; [apply fr_h_complaints_loop|intros l F]. destruct l; [apply fr_err|now apply fr_ret]. Qed.
Lemma fr_h_complaint_verify c d de co pk ad : frame (h_complaint_verify c d de co pk ad) (fun _ => True).
Proof.
  unfold h_complaint_verify. bd. bd. bd. bd. bd. bd. eapply fr_bind with (P := fun _ => True); [|intros ? ?; go].
  destruct (hd_ct d); go.
Qed.

(** ** Corruption *)
Lemma fr_h_add_all r cts : forall ts, Forall okp cts -> frame (h_add_all ts cts r) (fun _ => True).
Proof.
  intros ts F. induction ts as [|t ts IH]; simpl; [go|]. eapply fr_bind; [apply fr_hindex with (P := okp); exact F|intros ? ?].
  bd. exact IH.
Qed.
Lemma fr_h_zk_clone p : frame (h_zk_clone p) (fun a => match a with HPMasked q => okeo q | _ => a = p end).
Proof. unfold h_zk_clone. destruct p; [now apply fr_ret|bd; now apply fr_ret|]. eapply fr_bind; [apply fr_h_prod_clone|intros ? ->; now apply fr_ret]. Qed.
Definition corrupted_cells (d : hdealing) : list ptr := match hd_ct d with HMPair _ _ _ ct => map fst ct | _ => [] end.
Lemma fr_h_corrupt_dealing d ts seed : (forall p, In p (corrupted_cells d) -> In p ws) -> frame (h_corrupt_dealing d ts seed) (fun _ => True).
Proof.
  intros S. unfold h_corrupt_dealing. bd. bd. bd. eapply fr_bind with (P := fun _ => True).
  - unfold corrupted_cells in S. destruct (hd_ct d) as [e p pf ct|e p pf ct|].
    + eapply fr_bind; [apply fr_map' with (P := okp); intros; apply fr_s_clone|intros ? ?].
      eapply fr_bind; [apply fr_h_add_all; assumption|intros ? ?]. go.
    + eapply fr_bind; [apply fr_h_add_all; apply Forall_forall; intros; left; auto|intros ? ?]. go.
    + go.
  - intros c _. eapply fr_bind; [apply fr_h_zk_clone|intros ? ?]. go.
Qed.
End FrameDeal.
