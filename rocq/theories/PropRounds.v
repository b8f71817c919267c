(** C116: which round the key, the nonce and the products of a signing setup come from. *)
From Coq Require Import ZArith Lia Bool String List.
From Verif Require Import Base BaseFacts Zmod Fields ModelScalar ModelXmd ModelRo ProofRand ProofZk ProofTranscript ModelPoly ModelGroup
  ModelCommit ModelZk ModelMega ProofMega ModelDealing ModelComplaint ProofSign ModelProtocol ProofProtocol PropDealers.
From Verif Require PropProtocol Toy.
Import ListNotations.
Open Scope Z_scope.

(** Spec: the dealings of round number [k] are made from the shares [sh], with
    seeds out of the key stream of the seed derived for this number, and its
    transcript is made from these dealings *)
Definition dealt_in {X : Oracles} {GO : Grp} (su : setup) (seed : bytes) (k : Z) (sh : list shares) (r : round) : Prop :=
  exists s, blen s = 32 /\ seed_derive seed (str "ic-crypto-tecdsa-round-" ++ decimal k) = Ok s /\
    (exists op, new_transcript (su_threshold su) (rd_dealings r) op = Ok (rd_transcript r)) /\
    forall j d, In (j, d) (rd_dealings r) -> dealt_with su sh s j d.
(** shares that reshare the openings of a masked round *)
Definition reshares (os : list opening) (l : list shares) : Prop :=
  length l = length os /\ forall i x, nth_error l i = Some x -> exists v m, nth_error os i = Some (OPedersen v m) /\ x = SReshareMasked v m.
(** shares that multiply the openings of an unmasked and of a masked round *)
Definition products (us ms : list opening) (l : list shares) : Prop :=
  length l = length us /\ forall i x, nth_error l i = Some x ->
    exists v r rm, nth_error us i = Some (OSimple v) /\ nth_error ms i = Some (OPedersen r rm) /\ x = STimes v r rm.
(** setups that differ at most in the round counter, which is [k] in the second *)
Definition at_round {GO : Grp} (su su' : setup) (k : Z) : Prop :=
  su_threshold su' = su_threshold su /\ su_pk su' = su_pk su /\ su_ad su' = su_ad su /\ su_seed su' = su_seed su /\ su_round su' = k.

Section Facts.
Context {X : Oracles} {GO : Grp} (HX : oracles_ok X) (cb : commitment -> bytes).
Lemma run_dealt su0 su k sh n nc op r su' : at_round su0 su k -> round_run cb su sh n nc op = Ok (r, su') ->
  dealt_in su0 (su_seed su0) k sh r /\ at_round su0 su' (k + 1).
Proof.
  intros (A1 & A2 & A3 & A4 & A5) H. unfold round_run, next_dealing_seed in H.
  destruct (new_seed_total HX (su_seed su) (round_dst (su_round su))) as (s & Es & Ls).
  change (new_seed (su_seed su) (round_dst (su_round su))) with (seed_derive (su_seed su) (round_dst (su_round su))) in Es.
  rewrite Es in H. cbn [bind] in H. set (su1 := mksetup _ _ _ _ _ _ _) in H.
  destruct (create_dealings su1 sh n nc op s) as [ds| | |] eqn:Ed; cbn [bind] in H; try discriminate.
  destruct (new_transcript (su_threshold su1) ds op) as [t| | |] eqn:Et; cbn [bind] in H; try discriminate.
  unfold round_new in H. destruct (open_dealings cb su1 ds t) as [os| | |]; cbn [bind] in H; try discriminate.
  destruct (c_clone (tr_commitment t)) as [c| | |]; cbn [bind] in H; try discriminate. injection H as <- <-. split.
  - exists s. split; [exact Ls|]. split; [rewrite <- A4, <- A5; exact Es|]. cbn [rd_dealings rd_transcript].
    split; [exists op; rewrite <- A1; exact Et|]. intros j d Hin.
    destruct (C113_dealers X GO su1 sh n nc op s ds Ls Ed j d Hin) as (B & x & sd & d0 & E1 & E2 & E3 & E4). unfold su1 in E3. cbn [su_threshold su_pk su_ad] in E3.
    rewrite A1, A2, A3 in E3. split; [exact B|]. exists x, sd, d0. auto.
  - unfold su1, at_round. cbn. rewrite A5. auto.
Qed.
Lemma random_dealt su0 su k n nc r su' : at_round su0 su k -> round_random cb su n nc = Ok (r, su') ->
  dealt_in su0 (su_seed su0) k (repeat SRandom (Z.to_nat n)) r /\ at_round su0 su' (k + 1).
Proof.
  intros A H. unfold round_random, go_make in H. destruct (n <? 0); cbn [bind] in H; [discriminate|]. apply (run_dealt _ _ _ _ _ _ _ _ _ A H).
Qed.
Lemma reshare_dealt su0 su k m n nc r su' : at_round su0 su k -> round_reshare_masked cb su m n nc = Ok (r, su') ->
  (exists l, reshares (rd_openings m) l /\ dealt_in su0 (su_seed su0) k l r) /\ at_round su0 su' (k + 1).
Proof.
  intros A H. unfold round_reshare_masked in H. destruct (mapM _ (rd_openings m)) as [l| | |] eqn:E; cbn [bind] in H; try discriminate.
  destruct (c_clone (rd_commitment m)) as [c| | |]; cbn [bind] in H; try discriminate. destruct (run_dealt _ _ _ _ _ _ _ _ _ A H) as [D A'].
  split; [|exact A']. exists l. split; [|exact D]. clear - E. revert l E. induction (rd_openings m) as [|o os IH]; intros l E; cbn [mapM] in E.
  - apply Ok_inj in E. subst l. split; [reflexivity|]. intros [|i] x Q; discriminate.
  - destruct o; cbn [bind] in E; try discriminate. destruct (mapM _ os) as [l'| | |] eqn:E'; cbn [bind] in E; try discriminate. apply Ok_inj in E. subst l.
    destruct (IH l' eq_refl) as [L N]. split; [cbn [length]; congruence|]. intros [|i] x Q; cbn [nth_error] in *; [injection Q as <-; eauto|apply N, Q].
Qed.
Lemma multiply_dealt su0 su k m u n nc r su' : at_round su0 su k -> round_multiply cb su m u n nc = Ok (r, su') ->
  (exists l, products (rd_openings u) (rd_openings m) l /\ dealt_in su0 (su_seed su0) k l r) /\ at_round su0 su' (k + 1).
Proof.
  intros A H. unfold round_multiply in H. destruct (times_shares (rd_openings u) (rd_openings m)) as [l| | |] eqn:E; cbn [bind] in H; try discriminate.
  destruct (c_clone (rd_commitment u)) as [c| | |]; cbn [bind] in H; try discriminate. destruct (c_clone (rd_commitment m)) as [c'| | |]; cbn [bind] in H; try discriminate.
  destruct (run_dealt _ _ _ _ _ _ _ _ _ A H) as [D A']. split; [|exact A']. exists l. split; [|exact D]. clear - E. revert l E.
  generalize (rd_openings m) as ms. induction (rd_openings u) as [|o os IH]; intros ms l E; cbn [times_shares] in E.
  - apply Ok_inj in E. subst l. split; [reflexivity|]. intros [|i] x Q; discriminate.
  - destruct o; try discriminate. destruct ms as [|o ms]; [discriminate|]. destruct o; try discriminate.
    destruct (times_shares os ms) as [l'| | |] eqn:E'; cbn [bind] in E; try discriminate. apply Ok_inj in E. subst l.
    destruct (IH ms l' E') as [L N]. split; [cbn [length]; congruence|]. intros [|i] x Q; cbn [nth_error] in *; [injection Q as <-; eauto 6|apply N, Q].
Qed.
End Facts.

(** C116: the key goes back to round 0, the nonce to round 1 and the blinding
    factor to round 2, all of them dealt at random; the key and the nonce are
    reshared in rounds 3 and 4, and multiplied by the blinding factor in 5 and 6. *)
Theorem C116_rounds : forall (X : Oracles) (HX : oracles_ok X) (GO : Grp) (cbor_cm : commitment -> bytes) n th nc seed s,
  new_sig_setup cbor_cm n th nc seed = Ok s ->
  exists su key0 kappa0 l3 l4 l5 l6, new_setup n th seed = Ok su /\
    dealt_in su seed 0 (repeat SRandom (Z.to_nat n)) key0 /\
    dealt_in su seed 1 (repeat SRandom (Z.to_nat n)) kappa0 /\
    dealt_in su seed 2 (repeat SRandom (Z.to_nat n)) (ps_lambda s) /\
    (reshares (rd_openings key0) l3 /\ dealt_in su seed 3 l3 (ps_key s)) /\
    (reshares (rd_openings kappa0) l4 /\ dealt_in su seed 4 l4 (ps_kappa s)) /\
    (products (rd_openings (ps_key s)) (rd_openings (ps_lambda s)) l5 /\ dealt_in su seed 5 l5 (ps_key_lambda s)) /\
    (products (rd_openings (ps_kappa s)) (rd_openings (ps_lambda s)) l6 /\ dealt_in su seed 6 l6 (ps_kappa_lambda s)).
Proof.
  intros X HX GO cb n th nc seed s H. unfold new_sig_setup in H.
  destruct (new_setup n th seed) as [su| | |] eqn:E; cbn [bind] in H; try discriminate.
  assert (A : at_round su su 0 /\ su_seed su = seed).
  { unfold new_setup in E. destruct (seed_rng seed) as [rn| | |]; cbn [bind] in E; try discriminate. destruct (fill_uint8 rn (repeat 0 32)) as [ad rn1].
    destruct (go_make n) as [k| | |]; cbn [bind] in E; try discriminate. destruct (random_scalars k rn1) as [sk| | |]; cbn [bind] in E; try discriminate.
    apply Ok_inj in E. subst su. unfold at_round. cbn. auto 6. }
  destruct A as [A0 <-].
  destruct (round_random cb su n nc) as [[key0 su1]| | |] eqn:E0; cbn [bind] in H; try discriminate. destruct (random_dealt HX cb _ _ _ _ _ _ _ A0 E0) as [D0 A1].
  destruct (round_random cb su1 n nc) as [[kappa0 su2]| | |] eqn:E1; cbn [bind] in H; try discriminate. destruct (random_dealt HX cb _ _ _ _ _ _ _ A1 E1) as [D1 A2].
  destruct (round_random cb su2 n nc) as [[lambda su3]| | |] eqn:E2; cbn [bind] in H; try discriminate. destruct (random_dealt HX cb _ _ _ _ _ _ _ A2 E2) as [D2 A3].
  destruct (round_reshare_masked cb su3 key0 n nc) as [[key su4]| | |] eqn:E3; cbn [bind] in H; try discriminate. destruct (reshare_dealt HX cb _ _ _ _ _ _ _ _ A3 E3) as [(l3 & D3) A4].
  destruct (round_reshare_masked cb su4 kappa0 n nc) as [[kappa su5]| | |] eqn:E4; cbn [bind] in H; try discriminate. destruct (reshare_dealt HX cb _ _ _ _ _ _ _ _ A4 E4) as [(l4 & D4) A5].
  destruct (round_multiply cb su5 lambda key n nc) as [[kl su6]| | |] eqn:E5; cbn [bind] in H; try discriminate. destruct (multiply_dealt HX cb _ _ _ _ _ _ _ _ _ A5 E5) as [(l5 & D5) A6].
  destruct (round_multiply cb su6 lambda kappa n nc) as [[kkl su7]| | |] eqn:E6; cbn [bind] in H; try discriminate. destruct (multiply_dealt HX cb _ _ _ _ _ _ _ _ _ A6 E6) as [(l6 & D6) A7].
  apply Ok_inj in H. subst s. exists su, key0, kappa0, l3, l4, l5, l6. cbn [ps_key ps_kappa ps_lambda ps_key_lambda ps_kappa_lambda].
  split; [reflexivity|]. split; [exact D0|]. split; [exact D1|]. split; [exact D2|]. split; [exact D3|]. split; [exact D4|]. split; [exact D5|exact D6].
Qed.
Print Assumptions C116_rounds.

(** test values: the run of C59 *)
Example C116_ex : exists s, PropProtocol.ex_setup = Ok s.
Proof. pose proof PropProtocol.C59_ex as H. destruct PropProtocol.ex_setup as [s| | |]; [eauto|discriminate..]. Qed.
Example C116_ex_oracles : oracles_ok PropProtocol.exX.
Proof. apply PropProtocol.exX_ok. Qed.
