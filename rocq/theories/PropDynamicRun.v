(** C96: rounds with changing thresholds, nodes and dealers complete or are refused. *)
From Coq Require Import ZArith Lia Bool String List.
From Verif Require Import Base BaseFacts Zmod Fields ModelScalar ModelXmd ModelRo ProofRand SpecPoly ModelPoly ProofPoly ModelGroup GroupFacts SpecGroup ModelCommit ProofCommit
  ModelZk ModelMega ProofMega ModelDealing SpecDealing ProofDealing ProofTranscript ProofHonest ModelComplaint ModelKey ModelSign SpecSign ProofSign
  ModelProtocol ProofProtocol ProofRun ProofCorrupt SpecDrivers ProofDynamic ProofDynamicRun PropProtocol.
From Verif Require Toy ToyShort PropDynamic.
Import ListNotations.
Open Scope Z_scope.

(** the call succeeds, unless rejection sampling goes on forever or [C] *)
Definition completes {A} (C : Prop) (r : res A) : Prop := (exists a, r = Ok a) \/ r = Diverge \/ (r = Panic /\ C).
(** it returns an error, unless the same *)
Definition refused {A} (C : Prop) (r : res A) : Prop := r = Err \/ r = Diverge \/ (r = Panic /\ C).
(** two hashes collide or a drawn scalar is zero *)
Definition unlucky {X : Oracles} {GO : Grp} (su : setup) (m : Z) : Prop :=
  pop_collision (su_ad su) m \/
  exists s pos sd rn rn', seed_derive (su_seed su) (round_dst (su_round su)) = Ok s /\ seed_from_rng (mkrng s pos) = Ok (sd, rn) /\ random_scalar (mkrng sd 0) = Ok (fzero, rn').

Section Facts.
Context {X : Oracles} (HX : oracles_ok X) {GO : Grp} {GL : GrpLaws GO}.
Context (cbor_cm : commitment -> bytes).
Lemma mism_collision m su : mism m su -> pop_collision (su_ad su) m.
Proof.
  intros (s & sd & k & d & op & Hk & E & V). apply public_pop in V.
  assert (Hs : s <> SOther). { intros Q. rewrite Q in E. apply other_nil in E. rewrite E in V. discriminate V. }
  destruct (new_dealing_inv HX _ _ _ _ _ _ _ Hs E) as [_ D]. apply dealt_pop in D.
  destruct (d_ct d) as [e p pf c|e p pf c|]; [| |discriminate D]; apply (two_pops _ _ _ _ _ _ _ Hk D V).
Qed.
Lemma bad_unlucky m su : bad_deal m su -> unlucky su m.
Proof. intros [M|(s & E & pos & sd & rn & rn' & E1 & E2)]; [left; apply mism_collision, M|right; exists s, pos, sd, rn, rn'; auto]. Qed.
Lemma ok3_completes {A} (r : res A) m su : ok3 (fun _ => True) (bad_deal m su) r -> completes (unlucky su m) r.
Proof. unfold completes. destruct r as [a| | |]; cbn [ok3]; [eauto|contradiction| |auto]. intros B. right. right. split; [reflexivity|apply bad_unlucky, B]. Qed.
Lemma no3_refused {A} (r : res A) m su : no3 (bad_deal m su) r -> refused (unlucky su m) r.
Proof. unfold refused. destruct r as [a| | |]; cbn [no3]; [contradiction|auto| |auto]. intros B. right. right. split; [reflexivity|apply bad_unlucky, B]. Qed.

Context (su : setup) (dealers nc : Z) (R : su_ready su) (H2 : nc <= 0 \/ 2 * su_threshold su <= su_receivers su) (Hd : 1 <= dealers).

Lemma random_any : dealers <= 2^63 -> completes (unlucky su dealers) (round_random cbor_cm su dealers nc).
Proof.
  intros Hm. apply ok3_completes. unfold round_random, go_make. destruct (Z.ltb_spec dealers 0); [lia|]. rewrite bind_Ok.
  assert (L : Z.of_nat (length (repeat SRandom (Z.to_nat dealers))) = dealers) by (rewrite repeat_length; lia).
  destruct (round_run_any HX cbor_cm su TRandom true (repeat SRandom (Z.to_nat dealers)) dealers nc R H2) as [Q _].
  - intros E. rewrite E in L. cbn [length] in L. lia.
  - lia.
  - exact Hd.
  - intros s Hs. apply repeat_spec in Hs. subst s. reflexivity.
  - reflexivity.
  - intros j s Hs. apply nth_error_In, repeat_spec in Hs. subst s. exact I.
  - exact I.
  - rewrite L in Q. apply Q. cbn [op_needs]. lia.
Qed.
Lemma masked_any n th po mo masked : 0 < n <= 2^63 -> rinv (Z.to_nat n) th true po mo masked ->
  (th <= Z.min dealers n -> completes (unlucky su n) (round_reshare_masked cbor_cm su masked dealers nc)) /\
  (Z.min dealers n < th -> refused (unlucky su n) (round_reshare_masked cbor_cm su masked dealers nc)).
Proof.
  intros Hn I. pose proof I as (Hth & l & Ec & _ & (Ll & _) & Eo). unfold round_reshare_masked. rewrite Eo.
  rewrite (mapM_total _ (fun o => SReshareMasked (oval o) (omask o))) by (intros o Hin; apply in_map_iff in Hin; destruct Hin as (i & <- & _); reflexivity).
  rewrite bind_Ok, Ec. cbn [kcm c_clone unwrap]. rewrite bind_Ok, map_map. set (shs := map _ (seq 0 (Z.to_nat n))).
  assert (L : Z.of_nat (length shs) = n) by (unfold shs; rewrite map_length, seq_length; lia).
  destruct (round_run_any HX cbor_cm su (TReshareMasked (CPedersen l)) false shs dealers nc R H2) as [Q1 Q2].
  - intros E. rewrite E in L. cbn [length] in L. lia.
  - lia.
  - exact Hd.
  - intros s Hs. apply in_map_iff in Hs. destruct Hs as (i & <- & _). reflexivity.
  - reflexivity.
  - intros j s Hs. apply nth_seq_map in Hs. subst s. cbn [share_consistent].
    pose proof (rinv_check _ _ _ _ _ _ l (Z.of_nat j) I Ec) as Q. rewrite opening_at_eq in *. exact Q.
  - reflexivity.
  - cbn [op_needs] in Q1, Q2; unfold pts_of in Q1, Q2; cbn [unwrap] in Q1, Q2. rewrite L in Q1, Q2. split; intros Hc; [apply ok3_completes, Q1|apply no3_refused, Q2]; lia.
Qed.
Lemma unmasked_any n th po mo un : 0 < n <= 2^63 -> rinv (Z.to_nat n) th false po mo un ->
  (th <= Z.min dealers n -> completes (unlucky su n) (round_reshare_unmasked cbor_cm su un dealers nc)) /\
  (Z.min dealers n < th -> refused (unlucky su n) (round_reshare_unmasked cbor_cm su un dealers nc)).
Proof.
  intros Hn I. pose proof I as (Hth & l & Ec & _ & (Ll & _) & Eo). unfold round_reshare_unmasked. rewrite Eo.
  rewrite (mapM_total _ (fun o => SReshareUnmasked (oval o))) by (intros o Hin; apply in_map_iff in Hin; destruct Hin as (i & <- & _); reflexivity).
  rewrite bind_Ok, Ec. cbn [kcm c_clone unwrap]. rewrite bind_Ok, map_map. set (shs := map _ (seq 0 (Z.to_nat n))).
  assert (L : Z.of_nat (length shs) = n) by (unfold shs; rewrite map_length, seq_length; lia).
  destruct (round_run_any HX cbor_cm su (TReshareUnmasked (CSimple l)) false shs dealers nc R H2) as [Q1 Q2].
  - intros E. rewrite E in L. cbn [length] in L. lia.
  - lia.
  - exact Hd.
  - intros s Hs. apply in_map_iff in Hs. destruct Hs as (i & <- & _). reflexivity.
  - reflexivity.
  - intros j s Hs. apply nth_seq_map in Hs. subst s. cbn [share_consistent].
    pose proof (rinv_check _ _ _ _ _ _ l (Z.of_nat j) I Ec) as Q. rewrite opening_at_eq in *. exact Q.
  - split; [reflexivity|]. intros E. unfold pts_of in E; cbn [unwrap] in E. rewrite E in Ll. cbn [length] in Ll. lia.
  - cbn [op_needs] in Q1, Q2; unfold pts_of in Q1, Q2; cbn [unwrap] in Q1, Q2. rewrite L in Q1, Q2. split; intros Hc; [apply ok3_completes, Q1|apply no3_refused, Q2]; lia.
Qed.
Lemma times_shares_seq (f g m : nat -> Fq) a b : forall k,
  times_shares (map (fun i => OSimple (f i)) (seq k a)) (map (fun i => OPedersen (g i) (m i)) (seq k b)) =
  if Nat.leb a b then Ok (map (fun i => STimes (f i) (g i) (m i)) (seq k a)) else Panic.
Proof.
  revert b. induction a as [|a IH]; intros b k; [reflexivity|]. destruct b as [|b]; [reflexivity|].
  cbn [seq map times_shares Nat.leb]. rewrite IH. destruct (Nat.leb a b); reflexivity.
Qed.
Lemma multiply_any n th n' th' pl ml px mx masked unmasked : 0 < n' -> n <= 2^63 -> n' <= 2^63 ->
  rinv (Z.to_nat n) th true pl ml masked -> rinv (Z.to_nat n') th' false px mx unmasked ->
  (n' <= n -> th + th' - 1 <= Z.min dealers n' -> completes (unlucky su n') (round_multiply cbor_cm su masked unmasked dealers nc)) /\
  (n' <= n -> Z.min dealers n' < th + th' - 1 -> refused (unlucky su n') (round_multiply cbor_cm su masked unmasked dealers nc)) /\
  (n < n' -> round_multiply cbor_cm su masked unmasked dealers nc = Panic).
Proof.
  intros Hn' Hn Hm' I I'. pose proof I as (Hth & l & Ec & _ & (Ll & _) & Eo). pose proof I' as (Hth' & l' & Ec' & _ & (Ll' & _) & Eo').
  unfold round_multiply. rewrite Eo, Eo'.
  rewrite (map_ext _ (fun i => OSimple (pev px (from_node_index (Z.of_nat i))))) by (intros i; apply opening_at_eq).
  rewrite (map_ext (fun i => opening_at pl ml true (Z.of_nat i)) (fun i => OPedersen (pev pl (from_node_index (Z.of_nat i))) (pev ml (from_node_index (Z.of_nat i)))))
    by (intros i; apply opening_at_eq).
  rewrite times_shares_seq. destruct (Nat.leb_spec (Z.to_nat n') (Z.to_nat n)) as [Le|Lt].
  2:{ split; [intros; lia|]. split; [intros; lia|]. reflexivity. }
  rewrite bind_Ok, Ec, Ec'. cbn [kcm c_clone unwrap]. rewrite !bind_Ok. set (shs := map _ (seq 0 (Z.to_nat n'))).
  assert (L : Z.of_nat (length shs) = n') by (unfold shs; rewrite map_length, seq_length; lia).
  destruct (round_run_any HX cbor_cm su (TTimes (CSimple l') (CPedersen l)) true shs dealers nc R H2) as [Q1 Q2].
  - intros E. rewrite E in L. cbn [length] in L. lia.
  - lia.
  - exact Hd.
  - intros s Hs. apply in_map_iff in Hs. destruct Hs as (i & <- & _). reflexivity.
  - reflexivity.
  - intros j s Hs. apply nth_seq_map in Hs. subst s. cbn [share_consistent].
    pose proof (rinv_check _ _ _ _ _ _ l (Z.of_nat j) I Ec) as Q. pose proof (rinv_check _ _ _ _ _ _ l' (Z.of_nat j) I' Ec') as Q'.
    rewrite opening_at_eq in *. split; assumption.
  - split; reflexivity.
  - cbn [op_needs] in Q1, Q2; unfold pts_of in Q1, Q2; cbn [unwrap] in Q1, Q2. rewrite L in Q1, Q2. split; [|split].
    + intros _ Hc. apply ok3_completes, Q1. lia.
    + intros _ Hc. apply no3_refused, Q2. lia.
    + lia.
Qed.
End Facts.

(** C96: after any sequence of driver calls, a random round with any number of
    dealers completes; resharing a finished round completes if the asked number
    of dealers, among the round's nodes, reaches the round's threshold, and is
    refused with an error otherwise; multiplying completes or is refused
    according to the sum of the thresholds, provided the masked round has at
    least the nodes of the unmasked one *)
Theorem C96_rounds_complete_or_are_refused :
  forall (X : Oracles) (HX : oracles_ok X) (GO : Grp) (GL : GrpLaws GO) (cbor_cm : commitment -> bytes) su l dealers nc,
  runs cbor_cm su l -> 0 < su_threshold su <= su_receivers su -> nc <= 0 \/ 2 * su_threshold su <= su_receivers su -> 1 <= dealers ->
  (dealers <= 2^63 -> completes (unlucky su dealers) (round_random cbor_cm su dealers nc)) /\
  (forall en, In en l -> 0 < en_nodes en -> en_masked en = true ->
     (en_th en <= Z.min dealers (en_nodes en) -> completes (unlucky su (en_nodes en)) (round_reshare_masked cbor_cm su (en_round en) dealers nc)) /\
     (Z.min dealers (en_nodes en) < en_th en -> refused (unlucky su (en_nodes en)) (round_reshare_masked cbor_cm su (en_round en) dealers nc))) /\
  (forall en, In en l -> 0 < en_nodes en -> en_masked en = false ->
     (en_th en <= Z.min dealers (en_nodes en) -> completes (unlucky su (en_nodes en)) (round_reshare_unmasked cbor_cm su (en_round en) dealers nc)) /\
     (Z.min dealers (en_nodes en) < en_th en -> refused (unlucky su (en_nodes en)) (round_reshare_unmasked cbor_cm su (en_round en) dealers nc))) /\
  (forall en en', In en l -> In en' l -> 0 < en_nodes en' <= en_nodes en -> en_masked en = true -> en_masked en' = false ->
     (en_th en + en_th en' - 1 <= Z.min dealers (en_nodes en') ->
        completes (unlucky su (en_nodes en')) (round_multiply cbor_cm su (en_round en) (en_round en') dealers nc)) /\
     (Z.min dealers (en_nodes en') < en_th en + en_th en' - 1 ->
        refused (unlucky su (en_nodes en')) (round_multiply cbor_cm su (en_round en) (en_round en') dealers nc))).
Proof.
  intros X HX GO GL cb su l dealers nc H Ht H2 Hd. destruct (runs_inv HX cb su l H) as ([K L] & _ & v & Hv).
  assert (R : su_ready su) by (split; [exact K|split; [exact Ht|exact L]]).
  split; [apply (random_any HX cb su dealers nc R H2 Hd)|]. split; [|split].
  - intros en Hin Hn Hm. destruct (Hv en Hin) as (N & po & mo & I & _). rewrite Hm in I. apply (masked_any HX cb su dealers nc R H2 Hd _ _ po mo); [lia|exact I].
  - intros en Hin Hn Hm. destruct (Hv en Hin) as (N & po & mo & I & _). rewrite Hm in I. apply (unmasked_any HX cb su dealers nc R H2 Hd _ _ po mo); [lia|exact I].
  - intros en en' Hin Hin' Hn Hm Hm'. destruct (Hv en Hin) as (N & po & mo & I & _). rewrite Hm in I. destruct (Hv en' Hin') as (N' & po' & mo' & I' & _). rewrite Hm' in I'.
    destruct (multiply_any HX cb su dealers nc R H2 Hd _ _ _ _ po mo po' mo' _ _ (proj1 Hn) N N' I I') as (Q1 & Q2 & _).
    split; intros Hc; [apply Q1|apply Q2]; lia.
Qed.
Print Assumptions C96_rounds_complete_or_are_refused.

(** the proviso is needed: multiplying by a masked round made after nodes left
    is an index out of range (testutils/protocol_round.go:104-117 reads the
    masked openings at the positions of the unmasked ones) *)
Theorem C96_fewer_masked_nodes_panics :
  forall (X : Oracles) (HX : oracles_ok X) (GO : Grp) (GL : GrpLaws GO) (cbor_cm : commitment -> bytes) su l dealers nc,
  runs cbor_cm su l -> forall en en', In en l -> In en' l -> 0 <= en_nodes en < en_nodes en' -> en_masked en = true -> en_masked en' = false ->
  round_multiply cbor_cm su (en_round en) (en_round en') dealers nc = Panic.
Proof.
  intros X HX GO GL cb su l dealers nc H en en' Hin Hin' Hn Hm Hm'. destruct (runs_inv HX cb su l H) as (_ & _ & v & Hv).
  destruct (Hv en Hin) as (N & po & mo & I & _). rewrite Hm in I. destruct (Hv en' Hin') as (N' & po' & mo' & I' & _). rewrite Hm' in I'.
  destruct I as (_ & l0 & _ & _ & _ & Eo). destruct I' as (_ & l0' & _ & _ & _ & Eo').
  unfold round_multiply. rewrite Eo, Eo'.
  rewrite (map_ext _ (fun i => OSimple (pev po' (from_node_index (Z.of_nat i))))) by (intros i; apply opening_at_eq).
  rewrite (map_ext (fun i => opening_at po mo true (Z.of_nat i)) (fun i => OPedersen (pev po (from_node_index (Z.of_nat i))) (pev mo (from_node_index (Z.of_nat i)))))
    by (intros i; apply opening_at_eq).
  rewrite times_shares_seq. destruct (Nat.leb_spec (Z.to_nat (en_nodes en')) (Z.to_nat (en_nodes en))); [lia|reflexivity].
Qed.
Print Assumptions C96_fewer_masked_nodes_panics.

(** the hypotheses can be met: C94_ex has finished rounds of two nodes and of
    one node; its setup's threshold fits *)
Section Ex.
Import Toy.
Existing Instance ToyShort.shortX.
Existing Instance toyG.
Lemma ex_from seed : (forall su, new_setup 2 1 seed = Ok su -> is_ok (round_random PropDynamic.ex_cm su 2 1) = true) -> is_ok (new_setup 2 1 seed) = true ->
  exists su a, runs PropDynamic.ex_cm su [a] /\ su_threshold su = 1 /\ su_receivers su = 2 /\ en_masked a = true /\ en_nodes a = 2 /\ en_th a = 1.
Proof.
  intros H1 H0. destruct (new_setup 2 1 seed) as [s0| | |] eqn:E0; try discriminate H0. specialize (H1 s0 eq_refl).
  destruct (round_random PropDynamic.ex_cm s0 2 1) as [[a s1]| | |] eqn:E1; try discriminate H1. clear H0 H1.
  pose proof (run_new PropDynamic.ex_cm 2 _ _ _ ltac:(lia) E0) as R0.
  pose proof (run_random PropDynamic.ex_cm _ _ 2 _ _ _ R0 ltac:(lia) E1) as R1.
  apply new_setup_inv in E0; [|lia]. destruct E0 as (K0 & T0 & N0 & _).
  destruct (random_inv ToyShort.shortX_ok PropDynamic.ex_cm s0 2 1 a s1 K0 ltac:(lia) E1) as ((T1 & N1 & _) & _).
  exists s1. eexists _. split; [exact R1|]. cbn [en_masked en_nodes en_th]. rewrite T1, N1, T0, N0. repeat split; reflexivity.
Qed.
Lemma ex_two : match new_setup 2 1 (map Z.of_nat (seq 1 32)) with Ok su => is_ok (round_random PropDynamic.ex_cm su 2 1) | _ => false end = true.
Proof. vm_compute. reflexivity. Qed.
Example C96_ex : exists su a, runs PropDynamic.ex_cm su [a] /\ su_threshold su = 1 /\ su_receivers su = 2 /\ en_masked a = true /\ en_nodes a = 2 /\ en_th a = 1.
Proof.
  apply (ex_from (map Z.of_nat (seq 1 32))); pose proof ex_two as Q; destruct (new_setup 2 1 (map Z.of_nat (seq 1 32))) as [s| | |]; try discriminate Q.
  - intros su E. apply Ok_inj in E. subst su. exact Q.
  - reflexivity.
Qed.
End Ex.
