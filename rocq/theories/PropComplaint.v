(** Properties C45 and C46: complaints. *)
From Coq Require Import ZArith Lia Bool String List.
From Verif Require Import Base BaseFacts Zmod Fields ModelScalar ModelXmd ModelRo ModelPoly ModelGroup GroupFacts
  ModelCommit ModelZk ProofZk ModelMega ModelDealing SpecDealing ProofTranscript ModelComplaint ProofComplaint Toy.
Import ListNotations.
Open Scope Z_scope.

(** C45 *)
Theorem C45_complaints_exactly_for_failures :
  forall (X : Oracles) (HX : oracles_ok X) (GO : Grp) (GL : GrpLaws GO) ds ad i sk pk seed r,
  generate_complaints ds ad i sk pk seed = Ok r ->
  r <> [] /\
  (forall k, (exists c, In (k, c) r) <->
     (exists d, In (k, d) ds /\ m_decrypt_and_check (d_ct d) (d_cm d) ad k i sk pk = Err)) /\
  (forall k c, In (k, c) r -> exists d s, In (k, d) ds /\ m_decrypt_and_check (d_ct d) (d_cm d) ad k i sk pk = Err /\
     seed_derive seed (complaint_dst k) = Ok s /\ new_complaint s d k i sk pk ad = Ok c).
Proof.
  intros X HX GO GL ds ad i sk pk seed r H. unfold generate_complaints in H. apply bind_inv in H. destruct H as (r' & E & H).
  apply loop_spec in E. destruct E as (A & B & _).
  assert (r' = r /\ r <> []) as [-> N] by (destruct r'; [discriminate|injection H as <-; split; [reflexivity|discriminate]]).
  split; [exact N|]. split; [|exact A].
  intros k. split.
  - intros [c Hin]. destruct (A k c Hin) as (d & s & H1 & H2 & _). exists d. split; [exact H1|exact H2].
  - intros (d & Hin & F). exact (B k d Hin F).
Qed.
(** nothing to complain about: an error; on publicly verified dealings no
    other outcome than these (or the rejection sampler running out) exists *)
Theorem C45_outcomes :
  forall (X : Oracles) (HX : oracles_ok X) (GO : Grp) (GL : GrpLaws GO) ds op num n ad i sk pk seed,
  (forall k d, In (k, d) ds -> publicly_verify d op num k n ad = Ok tt) -> 0 <= i < n ->
  ((forall k d, In (k, d) ds -> exists o, m_decrypt_and_check (d_ct d) (d_cm d) ad k i sk pk = Ok o) ->
     generate_complaints ds ad i sk pk seed = Err) /\
  ((exists k d, In (k, d) ds /\ m_decrypt_and_check (d_ct d) (d_cm d) ad k i sk pk = Err) ->
     (exists r, generate_complaints ds ad i sk pk seed = Ok r) \/ generate_complaints ds ad i sk pk seed = Diverge).
Proof.
  intros X HX GO GL ds op num n ad i sk pk seed V Hi.
  assert (T : (exists r, complaints_loop ds ad i sk pk seed = Ok r) \/ complaints_loop ds ad i sk pk seed = Diverge).
  { apply (loop_total HX). intros k d Hin. split.
    - intros E. apply V in Hin. apply kinds_of_verified in Hin. unfold kinds_match in Hin. rewrite E in Hin. exact Hin.
    - apply (verified_check HX d op num k n); auto. }
  split.
  - intros A. assert (E : complaints_loop ds ad i sk pk seed = Ok []).
    { clear -A. induction ds as [|[k d] ds IH]; [reflexivity|]. cbn [complaints_loop].
      destruct (A k d (or_introl eq_refl)) as [o ->]. apply IH. intros k' d' Hin. apply A. right. exact Hin. }
    unfold generate_complaints. rewrite E. reflexivity.
  - intros (k & d & Hin & F). unfold generate_complaints. destruct T as [[r E]|E]; rewrite E; [|right; reflexivity].
    rewrite bind_Ok. left. apply loop_spec in E. destruct E as (_ & B & _). destruct (B k d Hin F) as [c Hc].
    destruct r as [|x r]; [destruct Hc|]. eauto.
Qed.
Print Assumptions C45_complaints_exactly_for_failures.
Print Assumptions C45_outcomes.

(** two publicly valid dealings; the second was dealt to the wrong keys for
    receiver 0, who complains about it alone *)
Definition ex_dealings : res (list (Z * dealing)) :=
  do d <- new_dealing SRandom [1] 2 [mul_by_g (of_Z q 21); mul_by_g (of_Z q 22)] 4 (str "ad");
  do d' <- new_dealing SRandom [2] 2 [mul_by_g (of_Z q 23); mul_by_g (of_Z q 22)] 6 (str "ad");
  Ok [(4, d); (6, d')].
Example C45_ex : match ex_dealings with
  | Ok ds => match generate_complaints ds (str "ad") 0 (of_Z q 21) (mul_by_g (of_Z q 21)) [3] with
             | Ok r => (bytes_eqb (map fst r) [6]
                        && forallb (fun kd => is_ok (publicly_verify (snd kd) TRandom 2 (fst kd) 2 (str "ad"))) ds)%bool
             | _ => false end
             && match generate_complaints ds (str "ad") 1 (of_Z q 22) (mul_by_g (of_Z q 22)) [3] with Err => true | _ => false end
  | _ => false end = true.
Proof. vm_compute. reflexivity. Qed.

(** C46 *)
Theorem C46_honest_complaint_iff :
  forall (X : Oracles) (HX : oracles_ok X) (GO : Grp) (GL : GrpLaws GO) d op num k n ad i sk seed c,
  publicly_verify d op num k n ad = Ok tt -> 0 <= i < n ->
  new_complaint seed d k i sk (mul_by_g sk) ad = Ok c ->
  (complaint_verify c d k i (mul_by_g sk) ad = Ok tt <->
   m_decrypt_and_check (d_ct d) (d_cm d) ad k i sk (mul_by_g sk) = Err).
Proof.
  intros X HX GO GL d op num k n ad i sk seed c V Hi H.
  apply (honest_complaint HX seed d k i sk ad c H).
  - exact (kinds_of_verified d op num k n ad V).
  - apply publicly_verify_inv in V. apply V.
  - exact (verified_check HX d op num k n ad i sk _ V Hi).
  - apply Hi.
  - apply publicly_verify_inv in V. destruct V as (_ & _ & R & _). exists n. split; [exact R|apply Hi].
Qed.
(** so everything GenerateComplaints returns on verified dealings is accepted *)
Theorem C46_generated_complaints_verify :
  forall (X : Oracles) (HX : oracles_ok X) (GO : Grp) (GL : GrpLaws GO) ds op num n ad i sk seed r,
  (forall k d, In (k, d) ds -> publicly_verify d op num k n ad = Ok tt) -> 0 <= i < n ->
  generate_complaints ds ad i sk (mul_by_g sk) seed = Ok r ->
  forall k c, In (k, c) r -> exists d, In (k, d) ds /\ complaint_verify c d k i (mul_by_g sk) ad = Ok tt.
Proof.
  intros X HX GO GL ds op num n ad i sk seed r V Hi H k c Hin.
  apply (C45_complaints_exactly_for_failures X HX GO GL) in H. destruct H as (_ & _ & H).
  destruct (H k c Hin) as (d & s & Hd & F & _ & Nc). exists d. split; [exact Hd|].
  apply (C46_honest_complaint_iff X HX GO GL d op num k n ad i sk s c); auto.
Qed.
(** whoever made the complaint and whatever its proof: with the true secret it
    is rejected if the dealing opens for that receiver *)
Theorem C46_true_secret_never_incriminates :
  forall (X : Oracles) (HX : oracles_ok X) (GO : Grp) (GL : GrpLaws GO) c d k i sk ad o e,
  m_eph (d_ct d) = Ok e -> cp_secret c = smul sk e ->
  m_decrypt_and_check (d_ct d) (d_cm d) ad k i sk (mul_by_g sk) = Ok o ->
  complaint_verify c d k i (mul_by_g sk) ad = Err.
Proof. intros X HX GO GL c d k i sk ad o e E S H. exact (no_false_complaint HX c d k i sk _ ad o e E S H). Qed.
(** and a false complainer can answer at most one challenge: two complaints
    over one secret and one pair of first messages with different challenges
    are both rejected if the dealing opens *)
Theorem C46_false_complainer_cannot_answer_twice :
  forall (X : Oracles) (HX : oracles_ok X) (GO : Grp) (GL : GrpLaws GO) c c' d k i sk ad o e,
  m_eph (d_ct d) = Ok e -> cp_secret c = cp_secret c' ->
  dlog_recover genG e (mul_by_g sk) (cp_secret c) (cp_proof c) = dlog_recover genG e (mul_by_g sk) (cp_secret c') (cp_proof c') ->
  dl_challenge (cp_proof c) <> dl_challenge (cp_proof c') ->
  m_decrypt_and_check (d_ct d) (d_cm d) ad k i sk (mul_by_g sk) = Ok o ->
  complaint_verify c d k i (mul_by_g sk) ad = Err /\ complaint_verify c' d k i (mul_by_g sk) ad = Err.
Proof.
  intros X HX GO GL c c' d k i sk ad o e E S R N H. rewrite <- S in R.
  destruct (dlog_special_sound genG e _ _ _ _ R N) as [A B]. apply mul_by_g_inj in A. rewrite <- A in B.
  split; apply (no_false_complaint HX _ d k i sk _ ad o e E); congruence.
Qed.
(** Verify does not look at the proof of possession: a dealing that the
    receiver cannot use only because that proof is wrong makes
    GenerateComplaints complain, and the complaint is rejected *)
Theorem C46_bad_pop_complaint_rejected :
  forall (X : Oracles) (HX : oracles_ok X) (GO : Grp) (GL : GrpLaws GO) e p pf ct p' pf' cm z z' k i sk ad seed c o,
  m_decrypt_and_check (MPair e p pf ct) cm ad k i sk (mul_by_g sk) = Ok o ->
  m_verify_pop (MPair e p' pf' ct) ad k = Err ->
  new_complaint seed (mkdealing (MPair e p' pf' ct) cm z) k i sk (mul_by_g sk) ad = Ok c ->
  m_decrypt_and_check (MPair e p' pf' ct) cm ad k i sk (mul_by_g sk) = Err /\
  complaint_verify c (mkdealing (MPair e p' pf' ct) cm z') k i (mul_by_g sk) ad = Err.
Proof.
  intros X HX GO GL e p pf ct p' pf' cm z z' k i sk ad seed c o H V N. split.
  - unfold m_decrypt_and_check, m_decrypt. rewrite V. reflexivity.
  - change (complaint_verify c (mkdealing (MPair e p pf ct) cm z) k i (mul_by_g sk) ad = Err).
    apply (no_false_complaint HX c (mkdealing (MPair e p pf ct) cm z) k i sk _ ad o e); [reflexivity| |exact H].
    unfold new_complaint in N. apply bind_inv in N. destruct N as (e' & E & N). apply bind_inv in N. destruct N as (a & _ & N).
    apply bind_inv in N. destruct N as (pf0 & _ & N). injection N as <-. injection E as <-. reflexivity.
Qed.
Print Assumptions C46_honest_complaint_iff.
Print Assumptions C46_generated_complaints_verify.
Print Assumptions C46_true_secret_never_incriminates.
Print Assumptions C46_false_complainer_cannot_answer_twice.
Print Assumptions C46_bad_pop_complaint_rejected.
Example C46_ex : match ex_dealings with
  | Ok ((k, d) :: (k', d') :: _) =>
      let sk := of_Z q 21 in let pk := mul_by_g sk in
      match new_complaint (repeat 7 32) d k 0 sk pk (str "ad"), new_complaint (repeat 7 32) d' k' 0 sk pk (str "ad") with
      | Ok c, Ok c' =>
        (match complaint_verify c d k 0 pk (str "ad") with Err => true | _ => false end
         && is_ok (complaint_verify c' d' k' 0 pk (str "ad"))
         && match complaint_verify c' d k 0 pk (str "ad") with Err => true | _ => false end)%bool
      | _, _ => false end
  | _ => false end = true.
Proof. vm_compute. reflexivity. Qed.
Example C46_bad_pop_ex : match ex_dealings with
  | Ok ((k, d) :: _) => match d_ct d with
      | MPair e p pf ct => match m_verify_pop (MPair e (smul (of_Z q 2) p) pf ct) (str "ad") k with Err => true | _ => false end
      | _ => false end
  | _ => false end = true.
Proof. vm_compute. reflexivity. Qed.
