(** C72, continued: CorruptDealingForAllRecipients with explicit memory. *)
From Coq Require Import ZArith Lia Bool String List.
From Verif Require Import Base BaseFacts Zmod Fields ModelScalar ModelXmd ModelRo ModelPoly ModelGroup SpecGroup ModelCommit ModelZk ModelMega
  ModelDealing ModelComplaint ModelKey ModelSign ModelProtocol ModelCorruptAll ModelHeap ModelHeapSign ModelHeapDeal SpecHeap SpecDealing SpecHeapDeal
  ProofHeap ProofHeapDeal ProofHeapAlloc ProofTranscript SpecPanic PropDealing PropPrivate PropHeap PropHeapDeal PropDelivery PropCorruptAll.
Import ListNotations.
Open Scope Z_scope.

Section All.
Context {X : Oracles} {GO : Grp}.
Lemma F2_len {A B} (R : A -> B -> Prop) l m : Forall2 R l m -> length l = length m.
Proof. induction 1; cbn [length]; congruence. Qed.
Lemma same_recipients h d v : dealing_at h d v ->
  (hm_recipients (hd_ct d) = hpanic /\ m_recipients (d_ct v) = Panic) \/
  exists n, hm_recipients (hd_ct d) = hret n /\ m_recipients (d_ct v) = Ok n.
Proof.
  intros (C & _ & _). unfold ciphertext_at in C. destruct (hd_ct d) as [e p pf ct|e p pf ct|], (d_ct v) as [e' p' pf' ct'|e' p' pf' ct'|]; try contradiction.
  - right. destruct C as (_ & _ & _ & L). apply F2_len in L. exists (Z.of_nat (length ct)). cbn [hm_recipients m_recipients]. rewrite L. auto.
  - right. destruct C as (_ & _ & _ & L). apply F2_len in L. exists (Z.of_nat (length ct)). cbn [hm_recipients m_recipients]. rewrite L. auto.
  - left. split; reflexivity.
Qed.
End All.
(** the result is the dealing corrupted for everybody, and a given dealing with
    encrypted pairs has become that dealing too *)
Theorem C72_corruption_for_all :
  forall (X : Oracles) (GO : Grp) (h : heap) (d : hdealing) v (seed : bytes),
  dealing_at h d v -> NoDup (dealing_cells d) -> unwrap (d_cm v) = d_cm v ->
  computes (first_components d) h (h_corrupt_all d seed)
    (fun h' a b => dealing_at h' a b /\
       match hd_ct d with HMPair _ _ _ _ => dealing_at h' d b | _ => dealing_at h' d v end)
    (corrupt_for_all v seed).
Proof.
  intros X GO h d v seed D N U. unfold h_corrupt_all, corrupt_for_all, all_recipients.
  destruct (same_recipients h d v D) as [[E1 E2]|(n & E1 & E2)]; rewrite E1, E2.
  - split; [intros p _ _; reflexivity|exact I].
  - exact (C72_corruption_damages_the_given_pairs X GO h d v _ seed D N U).
Qed.
(** so the original of a readable dealing with encrypted pairs still verifies
    publicly afterwards but can be read by none of its receivers, while an
    original with single ciphertexts is as before *)
Theorem C72_original_after_corruption_for_all :
  forall (X : Oracles) (HX : oracles_ok X) (GO : Grp) (GL : GrpLaws GO) (h : heap) (d : hdealing) v op th k n ad seed r rn nodes,
  dealing_at h d v -> NoDup (dealing_cells d) ->
  publicly_verify v op th k n ad = Ok tt -> bare (d_cm v) -> blen seed = 32 -> random_scalar (mkrng seed 0) = Ok (r, rn) -> r <> fzero ->
  (forall j s, In (j, s) nodes -> 0 <= j < n /\ exists o, read_by ad k v (j, s) = Ok o) ->
  match hd_ct d with
  | HMPair _ _ _ _ => exists v', dealing_at (fst (h_corrupt_all d seed h)) d v' /\ publicly_verify v' op th k n ad = Ok tt /\
      forall j s o, In (j, s) nodes -> read_by ad k v' (j, s) <> Ok o
  | _ => dealing_at (fst (h_corrupt_all d seed h)) d v
  end.
Proof.
  intros X HX GO GL h d v op th k n ad seed r rn nodes D N V B Ls Er Nr Hn.
  assert (U : unwrap (d_cm v) = d_cm v) by (destruct (d_cm v); try contradiction; reflexivity).
  pose proof (C72_corruption_for_all X GO h d v seed D N U) as [_ Q].
  destruct (C101_corrupted_for_all X HX GO GL v op th k n ad seed r rn nodes V B Ls Er Nr Hn) as (v' & E & V' & O & _).
  rewrite E in Q. destruct (snd (h_corrupt_all d seed h)) as [d'| | |]; try contradiction. destruct Q as [_ Q].
  destruct (hd_ct d); [exact Q| |exact Q]. exists v'. split; [exact Q|]. split; [exact V'|].
  intros j s o I R. assert (J : In (j, o) (openings_of ad k v' nodes)) by (apply openings_in; eauto). rewrite O in J. exact J.
Qed.
Print Assumptions C72_corruption_for_all.
Print Assumptions C72_original_after_corruption_for_all.
(** dealings of random values just made are such dealings *)
Lemma new_dealing_at (X : Oracles) (HX : oracles_ok X) (GO : Grp) (GL : GrpLaws GO) h seed ad t k rc keys d :
  points_at h rc (map (fun n => mul_by_g (snd n)) (holders_of keys)) -> snd (h_new_dealing HSRandom seed t rc k ad h) = Ok d ->
  exists v, dealing_at (fst (h_new_dealing HSRandom seed t rc k ad h)) d v /\ NoDup (dealing_cells d) /\
    publicly_verify v TRandom t k (Z.of_nat (length keys)) ad = Ok tt /\ bare (d_cm v) /\
    forall j s, In (j, s) (holders_of keys) -> 0 <= j < Z.of_nat (length keys) /\ exists o, read_by ad k v (j, s) = Ok o.
Proof.
  intros P E. destruct (h_new_dealing_ok h HSRandom seed t rc k ad SRandom _ I P) as [_ Q]. unfold rel in Q. rewrite E in Q.
  destruct (new_dealing SRandom seed t (map (fun n => mul_by_g (snd n)) (holders_of keys)) k ad) as [v| | |] eqn:Ev; try contradiction. exists v.
  assert (Lk : length (holders_of keys) = length keys) by (unfold holders_of; rewrite combine_length, map_length, seq_length; lia).
  pose proof (C37_honest_public X HX GO GL SRandom TRandom _ _ _ _ _ v Ev I) as V. rewrite map_length, Lk in V.
  split; [exact Q|]. split; [exact (tri_nodup _ _ (tri_new_dealing _ _ _ _ _ _ _) _ _ E)|]. split; [exact V|]. split.
  - pose proof (new_dealing_unwrapped _ _ _ _ _ _ _ Ev) as U. apply publicly_verify_inv in V. destruct V as (_ & _ & _ & _ & V & _).
    rewrite U in V. rewrite V. exact I.
  - intros j s H. pose proof H as H'. apply holders_in in H. destruct H as (i & -> & Hi).
    assert (Li : (i < length keys)%nat) by (apply nth_error_Some; congruence). split; [lia|].
    assert (Hr : nth_error (map (fun n => mul_by_g (snd n)) (holders_of keys)) i = Some (mul_by_g s)).
    { rewrite nth_error_map. unfold holders_of. rewrite (nth_error_nth' (combine _ _) (0, fzero)) by (fold (holders_of keys); lia).
      rewrite combine_nth by (rewrite map_length, seq_length; reflexivity). cbn [option_map snd]. now rewrite (nth_error_nth _ _ _ Hi). }
    pose proof (C37_honest_private X HX GO GL SRandom _ _ _ _ _ v ltac:(discriminate) Ev i s Hr) as Pv.
    unfold private_verify in Pv. apply bind_inv in Pv. destruct Pv as (c & _ & Pv). apply bind_inv in Pv. destruct Pv as (o & Pv & _). exists o. exact Pv.
Qed.
(** test values: two receivers, their public keys the only points in memory *)
Lemma two_receivers (X : Oracles) (HX : oracles_ok X) (GO : Grp) (GL : GrpLaws GO) seed ad t k a b :
  is_ok (snd (h_new_dealing HSRandom seed t [0; 1]%nat k ad [VP (mul_by_g a); VP (mul_by_g b)])) = true ->
  exists h d v, dealing_at h d v /\ NoDup (dealing_cells d) /\
    publicly_verify v TRandom t k 2 ad = Ok tt /\ bare (d_cm v) /\
    forall j s, In (j, s) [(0, a); (1, b)] -> 0 <= j < 2 /\ exists o, read_by ad k v (j, s) = Ok o.
Proof.
  intros H. destruct (snd (h_new_dealing HSRandom seed t [0; 1]%nat k ad [VP (mul_by_g a); VP (mul_by_g b)])) as [d| | |] eqn:E; try discriminate H.
  destruct (new_dealing_at X HX GO GL [VP (mul_by_g a); VP (mul_by_g b)] seed ad t k [0; 1]%nat [a; b] d) as (v & Q); [|exact E|].
  - constructor; [reflexivity|]. constructor; [reflexivity|constructor].
  - exists (fst (h_new_dealing HSRandom seed t [0; 1]%nat k ad [VP (mul_by_g a); VP (mul_by_g b)])), d, v. exact Q.
Qed.
From Verif Require Import Toy ToyShort.
#[local] Existing Instance shortX.
#[local] Existing Instance toyG.
Example C72_ex_all : exists h d v r rn, dealing_at h d v /\ NoDup (dealing_cells d) /\
  publicly_verify v TRandom 2 4 2 (str "ad") = Ok tt /\ bare (d_cm v) /\ blen (repeat 9 32) = 32 /\
  random_scalar (mkrng (repeat 9 32) 0) = Ok (r, rn) /\ r <> fzero /\
  forall j s, In (j, s) [(0, of_Z q 21); (1, of_Z q 22)] -> 0 <= j < 2 /\ exists o, read_by (str "ad") 4 v (j, s) = Ok o.
Proof.
  destruct (two_receivers shortX shortX_ok toyG toyL [1] (str "ad") 2 4 (of_Z q 21) (of_Z q 22)) as (h & d & v & D & N & V & B & R); [vm_compute; reflexivity|].
  assert (S : match random_scalar (mkrng (repeat 9 32) 0) with Ok (r, _) => negb (feqb r fzero) | _ => false end = true) by (vm_compute; reflexivity).
  destruct (random_scalar (mkrng (repeat 9 32) 0)) as [[r rn]| | |]; try discriminate S.
  exists h, d, v, r, rn. repeat (split; [assumption || reflexivity|]). split; [intros ->; discriminate S|]. exact R.
Qed.
