(** Complaints. *)
From Coq Require Import ZArith Lia Bool String List Ring Field.
From Verif Require Import Base BaseFacts Zmod Fields ModelScalar ProofScalar ModelXmd ModelRo ProofRo SpecPoly ModelPoly ProofPoly
  ModelGroup GroupFacts SpecGroup ModelCommit ProofCommit ProofXmd ModelZk ProofZk ModelMega ProofMega
  ModelDealing SpecDealing ProofDealing ProofTranscript ModelComplaint ProofOracles.
Import ListNotations.
Open Scope Z_scope.

Section Complaint.
Context {X : Oracles} (HX : oracles_ok X) {GO : Grp} {GL : GrpLaws GO}.

(** the outcome of DecryptAndCheck for every entry of the map *)
Definition fails (ad : bytes) (receiver : Z) (sk : Fq) (pk : G) (kd : Z * dealing) : Prop :=
  m_decrypt_and_check (d_ct (snd kd)) (d_cm (snd kd)) ad (fst kd) receiver sk pk = Err.

Lemma loop_spec ad i sk pk seed : forall ds r, complaints_loop ds ad i sk pk seed = Ok r ->
  (forall k c, In (k, c) r -> exists d s, In (k, d) ds /\ fails ad i sk pk (k, d) /\
     seed_derive seed (complaint_dst k) = Ok s /\ new_complaint s d k i sk pk ad = Ok c) /\
  (forall k d, In (k, d) ds -> fails ad i sk pk (k, d) -> exists c, In (k, c) r) /\
  (forall k d, In (k, d) ds -> fails ad i sk pk (k, d) \/ exists o, m_decrypt_and_check (d_ct d) (d_cm d) ad k i sk pk = Ok o).
Proof.
  induction ds as [|[k d] ds IH]; intros r H; cbn [complaints_loop] in H.
  - injection H as <-. split; [intros k c []|]. split; intros k d [].
  - destruct (m_decrypt_and_check (d_ct d) (d_cm d) ad k i sk pk) as [o| | |] eqn:E; try discriminate.
    + destruct (IH r H) as (A & B & C). split; [|split].
      * intros k' c Hin. destruct (A k' c Hin) as (d' & s & H1 & H2). exists d', s. split; [right; exact H1|exact H2].
      * intros k' d' [Eq|Hin] F; [|exact (B k' d' Hin F)]. injection Eq as <- <-. unfold fails in F. cbn [fst snd] in F. rewrite E in F. discriminate.
      * intros k' d' [Eq|Hin]; [|exact (C k' d' Hin)]. injection Eq as <- <-. right. eauto.
    + apply bind_inv in H. destruct H as (s & Es & H). apply bind_inv in H. destruct H as (c & Ec & H). apply bind_inv in H. destruct H as (r' & Er & H).
      injection H as <-. destruct (IH r' Er) as (A & B & C). split; [|split].
      * intros k' c' [Eq|Hin].
        -- injection Eq as <- <-. exists d, s. split; [left; reflexivity|]. split; [exact E|]. auto.
        -- destruct (A k' c' Hin) as (d' & s' & H1 & H2). exists d', s'. split; [right; exact H1|exact H2].
      * intros k' d' [Eq|Hin] F.
        -- injection Eq as <- <-. exists c. left. reflexivity.
        -- destruct (B k' d' Hin F) as [c' Hc]. exists c'. right. exact Hc.
      * intros k' d' [Eq|Hin]; [|exact (C k' d' Hin)]. injection Eq as <- <-. left. exact E.
Qed.

Lemma assoc_data_total ad i d pk : exists a, assoc_data ad i d pk = Ok a.
Proof.
  unfold assoc_data, ro_output_bytes.
  assert (N : ro_inputs (assoc_ro ad i d pk) <> []).
  { unfold assoc_ro, add_point at 1. apply run1_nonempty. apply (pt_call_wf "receiver_public_key"); reflexivity. }
  assert (F : exists m, ro_form (assoc_ro ad i d pk) = Ok m).
  { unfold ro_form. destruct (ro_inputs (assoc_ro ad i d pk)); [congruence|eauto]. }
  destruct F as [m ->]. rewrite bind_Ok. apply (expand_ok HX). lia.
Qed.

Lemma new_complaint_cases seed d k i sk pk ad : blen seed = 32 -> d_ct d <> MNil ->
  (exists c, new_complaint seed d k i sk pk ad = Ok c) \/ new_complaint seed d k i sk pk ad = Diverge.
Proof.
  intros Hs Hn. unfold new_complaint.
  assert (E : exists e, m_eph (d_ct d) = Ok e) by (destruct (d_ct d); [eexists; reflexivity..|congruence]).
  destruct E as [e ->]. rewrite bind_Ok. destruct (assoc_data_total ad i k pk) as [a ->]. rewrite bind_Ok.
  destruct (dlog_create_total HX seed sk genG e a Hs) as [[pf ->]| ->].
  - rewrite bind_Ok. eauto.
  - right. reflexivity.
Qed.

Lemma loop_total ad i sk pk seed ds :
  (forall k d, In (k, d) ds -> d_ct d <> MNil /\
     (fails ad i sk pk (k, d) \/ exists o, m_decrypt_and_check (d_ct d) (d_cm d) ad k i sk pk = Ok o)) ->
  (exists r, complaints_loop ds ad i sk pk seed = Ok r) \/ complaints_loop ds ad i sk pk seed = Diverge.
Proof.
  induction ds as [|[k d] ds IH]; intros H; cbn [complaints_loop]; [eauto|].
  assert (H' := IH (fun k' d' Hin => H k' d' (or_intror Hin))).
  destruct (H k d (or_introl eq_refl)) as [Hn [F|[o ->]]]; [|exact H'].
  unfold fails in F. cbn [fst snd] in F. rewrite F.
  destruct (new_seed_total HX seed (complaint_dst k)) as (s & -> & L). rewrite bind_Ok.
  destruct (new_complaint_cases s d k i sk pk ad L Hn) as [[c ->]| ->]; [|right; reflexivity]. rewrite bind_Ok.
  destruct H' as [[r ->]| ->]; [left; rewrite bind_Ok; eauto|right; reflexivity].
Qed.

Lemma verified_check dl op num d n ad i sk pk : publicly_verify dl op num d n ad = Ok tt -> 0 <= i < n ->
  fails ad i sk pk (d, dl) \/ exists o, m_decrypt_and_check (d_ct dl) (d_cm dl) ad d i sk pk = Ok o.
Proof.
  intros H Hi. destruct (verified_private HX dl op num d n ad i sk pk H Hi) as [E|E].
  - right. apply private_verify_inv in E. exact E.
  - left. unfold fails. cbn [fst snd]. unfold private_verify in E.
    apply publicly_verify_inv in H. destruct H as (_ & N & _).
    assert (C : exists P, c_constant_term (d_cm dl) = Ok P \/ c_constant_term (d_cm dl) = Panic).
    { unfold c_constant_term, c_points. unfold pts_of in N. destruct (unwrap (d_cm dl)) as [l|l| | |];
        try (exists gzero; right; reflexivity); rewrite bind_Ok; destruct l; try congruence; eauto. }
    destruct C as [P [C|C]]; rewrite C in E; [rewrite bind_Ok in E|discriminate].
    destruct (m_decrypt_and_check (d_ct dl) (d_cm dl) ad d i sk pk); cbn [bind] in E; congruence.
Qed.

(** what a complaint is checked against: decryption with the revealed secret,
    without the proof of possession *)
Definition raw_opening (d : dealing) (ad : bytes) (k i : Z) (pk ss : G) : res opening :=
  match d_ct d with
  | MSingle e _ _ ct => do s <- decrypt_single_ss e ct ad k i pk ss; Ok (OSimple s)
  | MPair e _ _ ct => do s <- decrypt_pair_ss e ct ad k i pk ss; Ok (OPedersen (fst s) (snd s))
  | MNil => Err
  end.
(** the ciphertext is of the kind the commitment calls for *)
Definition kinds_match (d : dealing) : Prop :=
  match d_ct d with
  | MSingle _ _ _ _ => c_type (d_cm d) = Ok ct_simple
  | MPair _ _ _ _ => c_type (d_cm d) = Ok ct_pedersen
  | MNil => False
  end.

Lemma verify_raw c d k i pk ad : kinds_match d ->
  complaint_verify c d k i pk ad =
    (do a <- assoc_data ad i k pk; do e <- m_eph (d_ct d); do _ <- dlog_verify (cp_proof c) genG e pk (cp_secret c) a;
     do o <- raw_opening d ad k i pk (cp_secret c); do b <- c_check_opening (d_cm d) i o; if b then Err else Ok tt).
Proof.
  intros K. unfold complaint_verify, raw_opening, kinds_match in *.
  destruct (assoc_data ad i k pk); cbn [bind]; try reflexivity.
  destruct (d_ct d); try contradiction; cbn [m_eph bind]; rewrite K; destruct (dlog_verify _ _ _ _ _ _); cbn [bind]; try reflexivity.
Qed.
Lemma check_raw d ad k i sk pk e : m_eph (d_ct d) = Ok e -> m_verify_pop (d_ct d) ad k = Ok tt ->
  m_decrypt_and_check (d_ct d) (d_cm d) ad k i sk pk =
    (do o <- raw_opening d ad k i pk (smul sk e); do b <- c_check_opening (d_cm d) i o; if b then Ok o else Err).
Proof.
  intros E V. unfold m_decrypt_and_check, m_decrypt, raw_opening. rewrite V. rewrite bind_Ok.
  destruct (d_ct d); cbn [m_eph] in E; try discriminate; injection E as ->; reflexivity.
Qed.

Lemma kinds_of_verified dl op num d n ad : publicly_verify dl op num d n ad = Ok tt -> kinds_match dl.
Proof.
  intros H. apply publicly_verify_inv in H. destruct H as (_ & _ & _ & _ & K). unfold kinds_match, c_type.
  destruct op; [| | | |contradiction]; destruct K as (U & (e0 & p0 & pf0 & c0 & ->) & _); rewrite U; reflexivity.
Qed.

(** no complaint with the true secret passes against a dealing that opens *)
Lemma no_false_complaint c d k i sk pk ad o e : m_eph (d_ct d) = Ok e -> cp_secret c = smul sk e ->
  m_decrypt_and_check (d_ct d) (d_cm d) ad k i sk pk = Ok o -> complaint_verify c d k i pk ad = Err.
Proof.
  intros E S H.
  assert (V : m_verify_pop (d_ct d) ad k = Ok tt).
  { unfold m_decrypt_and_check, m_decrypt in H. apply bind_inv in H. destruct H as (o' & H & _). apply bind_inv in H. destruct H as ([] & H & _). exact H. }
  rewrite (check_raw d ad k i sk pk e E V) in H. apply bind_inv in H. destruct H as (o' & R & H). apply bind_inv in H. destruct H as (b & C & H).
  destruct b; [|discriminate]. injection H as ->. rewrite <- S in R.
  unfold complaint_verify. destruct (assoc_data_total ad i k pk) as [a ->]. rewrite bind_Ok, E, bind_Ok.
  destruct (dlog_verify_cases HX (cp_proof c) genG e pk (cp_secret c) a) as [-> | ->]; [rewrite bind_Ok|reflexivity].
  assert (T : exists t, c_type (d_cm d) = Ok t).
  { unfold c_type. unfold c_check_opening in C. destruct (unwrap (d_cm d)) eqn:U; [eauto|eauto|exfalso..]; destruct o; discriminate. }
  destruct T as [t T]. rewrite T, bind_Ok. unfold raw_opening in R. destruct (d_ct d) as [e' p pf ct|e' p pf ct|]; [| |discriminate].
  - destruct (t =? ct_simple); [|reflexivity]. rewrite R, bind_Ok, C. reflexivity.
  - destruct (t =? ct_pedersen); [|reflexivity]. rewrite R, bind_Ok, C. reflexivity.
Qed.

Lemma check_opening_not_err c i o : c_check_opening c i o <> Err.
Proof.
  unfold c_check_opening, eval_points. destruct (unwrap c) as [l|l| | |]; try discriminate; destruct o; try discriminate; destruct l; discriminate.
Qed.
Lemma honest_complaint seed d k i sk ad c : new_complaint seed d k i sk (mul_by_g sk) ad = Ok c ->
  kinds_match d -> m_verify_pop (d_ct d) ad k = Ok tt ->
  (fails ad i sk (mul_by_g sk) (k, d) \/ exists o, m_decrypt_and_check (d_ct d) (d_cm d) ad k i sk (mul_by_g sk) = Ok o) ->
  0 <= i -> (exists n, m_recipients (d_ct d) = Ok n /\ i < n) ->
  (complaint_verify c d k i (mul_by_g sk) ad = Ok tt <-> fails ad i sk (mul_by_g sk) (k, d)).
Proof.
  intros H K V D Hi (n & Rn & Hn). unfold new_complaint in H. apply bind_inv in H. destruct H as (e & E & H).
  apply bind_inv in H. destruct H as (a & A & H). apply bind_inv in H. destruct H as (pf & P & H). injection H as <-.
  split; intros F.
  - destruct D as [D|[o D]]; [exact D|].
    rewrite (no_false_complaint (mkcomplaint pf (smul sk e)) d k i sk _ ad o e E eq_refl D) in F. discriminate.
  - unfold fails in F. cbn [fst snd] in F. rewrite (check_raw d ad k i sk _ e E V) in F.
    rewrite verify_raw by exact K. rewrite A, bind_Ok, E, bind_Ok. cbn [cp_proof cp_secret].
    apply dlog_complete in P. unfold mul_by_g at 1. rewrite P, bind_Ok.
    assert (R : exists o, raw_opening d ad k i (mul_by_g sk) (smul sk e) = Ok o).
    { unfold raw_opening. unfold kinds_match in K. destruct (d_ct d) as [e' p pf' ct|e' p pf' ct|]; [| |contradiction]; injection Rn as <-.
      - destruct (decrypt_single_ss_cases HX e' ct ad k i (mul_by_g sk) (smul sk e)) as (_ & _ & Q). destruct (Q (conj Hi Hn)) as (x & h & _ & _ & ->). rewrite bind_Ok. eauto.
      - destruct (decrypt_pair_ss_cases HX e' ct ad k i (mul_by_g sk) (smul sk e)) as (_ & _ & Q). destruct (Q (conj Hi Hn)) as (x & h & h' & _ & _ & ->). rewrite bind_Ok. eauto. }
    destruct R as [o R]. rewrite R in F |- *. cbn [bind] in F |- *. pose proof (check_opening_not_err (d_cm d) i o) as Ne. revert F Ne. clear. destruct (c_check_opening (d_cm d) i o) as [[|]| | |]; cbn [bind]; intros F Ne; try discriminate F; try reflexivity; exfalso; apply Ne; reflexivity.
Qed.
End Complaint.
