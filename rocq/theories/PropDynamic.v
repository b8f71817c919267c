(** C94: what rounds share under changing thresholds, nodes and dealers. *)
From Coq Require Import ZArith Lia Bool String List.
From Verif Require Import Base BaseFacts Zmod Fields ModelScalar ModelXmd ModelRo ProofRand SpecPoly ModelPoly ProofPoly ModelGroup GroupFacts SpecGroup ModelCommit
  ModelZk ModelMega ProofMega ModelDealing SpecDealing ProofDealing ProofTranscript ModelComplaint ModelKey ModelSign SpecSign ProofSign
  ModelProtocol ProofProtocol ProofRun SpecDrivers ProofDynamic.
From Verif Require Toy ToyShort.
Import ListNotations.
Open Scope Z_scope.

Section Facts.
Context {X : Oracles} (HX : oracles_ok X) {GO : Grp} {GL : GrpLaws GO}.
Context (cbor_cm : commitment -> bytes).
Lemma rinv_constant_term n th pair po mo r : rinv n th pair po mo r ->
  c_constant_term (rd_commitment r) = Ok (if pair then pedersen (pev po fzero) (pev mo fzero) else mul_by_g (pev po fzero)).
Proof.
  intros (Hth & l & -> & _ & (Ll & _ & _ & E) & _). specialize (E fzero). rewrite gev_0 in E.
  destruct l as [|P l]; [cbn [length] in Ll; lia|]. cbn [nth] in E. unfold kev in E.
  unfold c_constant_term, c_points. rewrite unwrap_kcm. destruct pair; cbn; rewrite E; reflexivity.
Qed.
Lemma rinv_len n th pair po mo r : rinv n th pair po mo r -> c_len (rd_commitment r) = Ok th.
Proof.
  intros (Hth & l & -> & _ & (Ll & _) & _). unfold c_len, c_points. rewrite unwrap_kcm. destruct pair; cbn; f_equal; lia.
Qed.
End Facts.

(** C94: whatever sequence of driver calls was made, every finished round shares
    the product its construction says, by polynomials of the degree its
    threshold allows; the commitment's constant term is a commitment to the
    secret and every node's opening matches *)
Theorem C94_rounds_share_their_expressions :
  forall (X : Oracles) (HX : oracles_ok X) (GO : Grp) (GL : GrpLaws GO) (cbor_cm : commitment -> bytes) su l,
  runs cbor_cm su l -> exists v : nat -> Fq, forall en, In en l ->
    exists po mo, spec_eval po fzero = eval v (en_expr en) /\ (Z.of_nat (length po) <= en_th en) /\ (Z.of_nat (length mo) <= en_th en) /\
      c_constant_term (rd_commitment (en_round en)) =
        Ok (if en_masked en then pedersen (eval v (en_expr en)) (spec_eval mo fzero) else mul_by_g (eval v (en_expr en))) /\
      Z.of_nat (length (rd_openings (en_round en))) = Z.max 0 (en_nodes en) /\
      forall i o, nth_error (rd_openings (en_round en)) i = Some o ->
        o = (if en_masked en then OPedersen (spec_eval po (node_x (Z.of_nat i))) (spec_eval mo (node_x (Z.of_nat i))) else OSimple (spec_eval po (node_x (Z.of_nat i)))) /\
        c_check_opening (rd_commitment (en_round en)) (Z.of_nat i) o = Ok true.
Proof.
  intros X HX GO GL cb su l H. destruct (runs_inv HX cb su l H) as (_ & _ & v & Hv). exists v. intros en Hin.
  destruct (Hv en Hin) as (_ & po & mo & R & E). exists po, mo. rewrite !pev_spec. split; [exact E|].
  pose proof R as (Hth & l0 & Ec & _ & (Ll & Lp & Lm & _) & Eo). split; [lia|]. split; [lia|]. split.
  - rewrite (rinv_constant_term _ _ _ _ _ _ R), E. reflexivity.
  - split; [rewrite Eo, map_length, seq_length; lia|]. intros i o Hi. rewrite Eo in Hi. apply nth_seq_map in Hi. subst o. split; [reflexivity|].
    rewrite Ec. apply (rinv_check _ _ _ _ _ _ l0 _ R Ec).
Qed.
Print Assumptions C94_rounds_share_their_expressions.

(** two unmasked rounds built, in whatever order, with whatever thresholds,
    nodes, dealers and corruption, to share the same product have the same
    constant term: the assertions of testutils/protocol_test.go:29, 30, 35, 68
    and 89 for every such sequence *)
Theorem C94_same_expression_same_constant_term :
  forall (X : Oracles) (HX : oracles_ok X) (GO : Grp) (GL : GrpLaws GO) (cbor_cm : commitment -> bytes) su l a b,
  runs cbor_cm su l -> In a l -> In b l -> en_masked a = false -> en_masked b = false ->
  (forall v, eval v (en_expr a) = eval v (en_expr b)) ->
  exists K, c_constant_term (rd_commitment (en_round a)) = Ok K /\ c_constant_term (rd_commitment (en_round b)) = Ok K.
Proof.
  intros X HX GO GL cb su l a b H Ha Hb Ma Mb E. destruct (runs_inv HX cb su l H) as (_ & _ & v & Hv).
  destruct (Hv a Ha) as (_ & pa & ma & Ra & Ea). destruct (Hv b Hb) as (_ & pb & mb & Rb & Eb). rewrite Ma in Ra. rewrite Mb in Rb.
  exists (mul_by_g (eval v (en_expr a))). rewrite (rinv_constant_term _ _ _ _ _ _ Ra), (rinv_constant_term _ _ _ _ _ _ Rb), Ea, Eb, (E v). split; reflexivity.
Qed.
Print Assumptions C94_same_expression_same_constant_term.

(** a round with fewer dealers than the inputs' thresholds need is never
    finished (testutils/protocol_test.go:20, 32, 37, 39, 77, 85, 104, 106), whatever the
    setup's threshold has become meanwhile *)
Theorem C94_too_few_dealers :
  forall (X : Oracles) (HX : oracles_ok X) (GO : Grp) (GL : GrpLaws GO) (cbor_cm : commitment -> bytes) su l dealers nc,
  runs cbor_cm su l ->
  (forall en, In en l -> dealers < en_th en ->
     is_ok (round_reshare_masked cbor_cm su (en_round en) dealers nc) = false /\
     is_ok (round_reshare_unmasked cbor_cm su (en_round en) dealers nc) = false) /\
  (forall en en', In en l -> In en' l -> dealers < en_th en + en_th en' - 1 ->
     is_ok (round_multiply cbor_cm su (en_round en) (en_round en') dealers nc) = false).
Proof.
  intros X HX GO GL cb su l dealers nc H. destruct (runs_inv HX cb su l H) as (_ & _ & v & Hv).
  assert (Cl : forall en p, In en l -> c_clone (rd_commitment (en_round en)) = Ok p -> c_len p = Ok (en_th en)).
  { intros en p Hin Ep. destruct (Hv en Hin) as (_ & po & mo & R & _). pose proof (rinv_len _ _ _ _ _ _ R) as L. destruct R as (_ & l0 & Ec & _). rewrite Ec in *.
    apply c_clone_kcm in Ep. subst p. exact L. }
  assert (No : forall (f : opening -> res shares) os sh, (forall o s, f o = Ok s -> s <> SOther) -> mapM f os = Ok sh -> ~ In SOther sh).
  { intros f os. induction os as [|o os IH]; intros sh Hf Hm; cbn [mapM] in Hm; [injection Hm as <-; intros []|].
    apply bind_inv in Hm. destruct Hm as (s & Es & Hm). apply bind_inv in Hm. destruct Hm as (ss & Ess & Hm). injection Hm as <-.
    intros [E|E]; [apply (Hf _ _ Es E)|apply (IH _ Hf Ess E)]. }
  split.
  - intros en Hin Hd. split.
    + destruct (round_reshare_masked cb su (en_round en) dealers nc) as [[r su']| | |] eqn:E; try reflexivity. exfalso.
      unfold round_reshare_masked in E. apply bind_inv in E. destruct E as (sh & Es & E). apply bind_inv in E. destruct E as (p & Ep & E).
      apply (round_run_few HX) in E; [|eapply No; [|exact Es]; intros o s Q; destruct o; try discriminate Q; injection Q as <-; discriminate].
      destruct E as (ds & t & L & _ & Et). apply new_transcript_enough in Et. cbn [enough] in Et. specialize (Et _ (Cl en p Hin Ep)). lia.
    + destruct (round_reshare_unmasked cb su (en_round en) dealers nc) as [[r su']| | |] eqn:E; try reflexivity. exfalso.
      unfold round_reshare_unmasked in E. apply bind_inv in E. destruct E as (sh & Es & E). apply bind_inv in E. destruct E as (p & Ep & E).
      apply (round_run_few HX) in E; [|eapply No; [|exact Es]; intros o s Q; destruct o; try discriminate Q; injection Q as <-; discriminate].
      destruct E as (ds & t & L & _ & Et). apply new_transcript_enough in Et. cbn [enough] in Et. specialize (Et _ (Cl en p Hin Ep)). lia.
  - intros en en' Hin Hin' Hd. destruct (round_multiply cb su (en_round en) (en_round en') dealers nc) as [[r su']| | |] eqn:E; try reflexivity. exfalso.
    unfold round_multiply in E. apply bind_inv in E. destruct E as (sh & Es & E). apply bind_inv in E. destruct E as (p & Ep & E). apply bind_inv in E. destruct E as (p' & Ep' & E).
    apply (round_run_few HX) in E.
    + destruct E as (ds & t & L & _ & Et). apply new_transcript_enough in Et. cbn [enough] in Et. specialize (Et _ _ (Cl en' p Hin' Ep) (Cl en p' Hin Ep')). lia.
    + clear - Es. revert Es. generalize (rd_openings (en_round en)). revert sh. induction (rd_openings (en_round en')) as [|u us IH]; intros sh ms Es; cbn [times_shares] in Es.
      * injection Es as <-. intros [].
      * destruct u; try discriminate. destruct ms as [|o ms]; [discriminate|]. destruct o; try discriminate. apply bind_inv in Es. destruct Es as (sh' & Es & Q). injection Q as <-.
        intros [C|C]; [discriminate|]. apply (IH _ _ Es C).
Qed.
Print Assumptions C94_too_few_dealers.

(** the hypotheses can be met: with the toy oracles two nodes share a random
    secret with threshold one, one of them leaves, the other one reshares the
    secret and then reshares the resharing *)
Section Ex.
Import Toy.
Existing Instance ToyShort.shortX.
Existing Instance toyG.
Definition ex_cm (c : commitment) : bytes := [].
Definition ex_run (seed : bytes) : res (setup * (setup * (setup * (setup * round) * (setup * round)) * (setup * round))) :=
  do s0 <- new_setup 2 1 seed;
  do r <- round_random ex_cm s0 1 0; let '(a, s1) := r in
  do s2 <- remove_nodes s1 1;
  do r <- round_reshare_masked ex_cm s2 a 1 0; let '(b, s3) := r in
  do r <- round_reshare_unmasked ex_cm s3 b 1 0; let '(c, s4) := r in
  Ok (s0, (s2, (s2, (s1, a), (s3, b)), (s4, c))).
Lemma ex_run_done : is_ok (ex_run (map Z.of_nat (seq 1 32))) = true.
Proof. vm_compute. reflexivity. Qed.
Lemma ex_runs seed : is_ok (ex_run seed) = true -> exists su a b c, runs ex_cm su [c; b; a] /\ en_masked a = true /\ en_masked b = false /\ en_masked c = false /\
  (forall v, eval v (en_expr c) = eval v (en_expr b)) /\ en_nodes a = 2 /\ en_nodes b = 1 /\ su_receivers su = 1.
Proof.
  intros H. unfold ex_run in H.
  destruct (new_setup 2 1 seed) as [s0| | |] eqn:E0; try discriminate H. rewrite bind_Ok in H.
  destruct (round_random ex_cm s0 1 0) as [[a s1]| | |] eqn:E1; try discriminate H. rewrite bind_Ok in H.
  destruct (remove_nodes s1 1) as [s2| | |] eqn:E2; try discriminate H. rewrite bind_Ok in H.
  destruct (round_reshare_masked ex_cm s2 a 1 0) as [[b s3]| | |] eqn:E3; try discriminate H. rewrite bind_Ok in H.
  destruct (round_reshare_unmasked ex_cm s3 b 1 0) as [[c s4]| | |] eqn:E4; try discriminate H. clear H.
  pose proof (run_new ex_cm 2 _ _ _ ltac:(lia) E0) as R0.
  pose proof (run_random ex_cm _ _ 1 _ _ _ R0 ltac:(lia) E1) as R1.
  pose proof (run_remove ex_cm _ _ _ _ R1 E2) as R2.
  pose proof (run_masked ex_cm _ _ _ _ _ _ _ R2 (or_introl eq_refl) eq_refl E3) as R3.
  pose proof (run_unmasked ex_cm _ _ _ _ _ _ _ R3 (or_introl eq_refl) eq_refl E4) as R4.
  apply new_setup_inv in E0; [|lia]. destruct E0 as (K0 & T0 & N0 & _).
  destruct (random_inv ToyShort.shortX_ok ex_cm s0 1 0 a s1 K0 ltac:(lia) E1) as ((_ & N1 & _) & _).
  assert (N2 : su_receivers s2 = 1).
  { unfold remove_nodes in E2. rewrite N1, N0 in E2. destruct (_ || _); [discriminate|]. injection E2 as <-. reflexivity. }
  destruct (runs_inv ToyShort.shortX_ok ex_cm _ _ R2) as ((K2 & _) & _).
  destruct (runs_inv ToyShort.shortX_ok ex_cm _ _ R3) as ((K3 & _) & _).
  exists s4. eexists _, _, _. split; [exact R4|]. cbn [en_masked en_expr en_nodes]. split; [reflexivity|]. split; [reflexivity|]. split; [reflexivity|].
  split; [reflexivity|]. split; [exact N0|]. split; [exact N2|].
  assert (Q : forall su r d nc r' su', round_reshare_unmasked ex_cm su r d nc = Ok (r', su') -> su_receivers su' = su_receivers su).
  { intros su r d nc r' su' E. unfold round_reshare_unmasked in E. apply bind_inv in E. destruct E as (sh & _ & E). apply bind_inv in E. destruct E as (p & _ & E).
    unfold round_run in E. apply bind_inv in E. destruct E as ([s su1] & En & E). unfold next_dealing_seed in En. apply bind_inv in En. destruct En as (x & _ & En). injection En as _ <-.
    apply bind_inv in E. destruct E as (ds & _ & E). apply bind_inv in E. destruct E as (t & _ & E). apply bind_inv in E. destruct E as (rr & _ & E). injection E as _ <-. reflexivity. }
  rewrite (Q _ _ _ _ _ _ E4).
  assert (Q' : forall su r d nc r' su', round_reshare_masked ex_cm su r d nc = Ok (r', su') -> su_receivers su' = su_receivers su).
  { intros su r d nc r' su' E. unfold round_reshare_masked in E. apply bind_inv in E. destruct E as (sh & _ & E). apply bind_inv in E. destruct E as (p & _ & E).
    unfold round_run in E. apply bind_inv in E. destruct E as ([s su1] & En & E). unfold next_dealing_seed in En. apply bind_inv in En. destruct En as (x & _ & En). injection En as _ <-.
    apply bind_inv in E. destruct E as (ds & _ & E). apply bind_inv in E. destruct E as (t & _ & E). apply bind_inv in E. destruct E as (rr & _ & E). injection E as _ <-. reflexivity. }
  rewrite (Q' _ _ _ _ _ _ E3). exact N2.
Qed.
Example C94_ex : exists su a b c, runs ex_cm su [c; b; a] /\ en_masked a = true /\ en_masked b = false /\ en_masked c = false /\
  (forall v, eval v (en_expr c) = eval v (en_expr b)) /\ en_nodes a = 2 /\ en_nodes b = 1 /\ su_receivers su = 1.
Proof. exact (ex_runs _ ex_run_done). Qed.
End Ex.
