(** C100: whoever dealt them, publicly valid dealings either give every node its share
    or gather complaints that everybody accepts. *)
From Coq Require Import ZArith Lia Bool String List.
From Verif Require Import Base BaseFacts Zmod Fields ModelScalar ModelXmd ModelRo SpecPoly ModelPoly ModelGroup GroupFacts SpecGroup
  ModelCommit ProofCommit ModelZk ModelMega ModelDealing SpecDealing ProofDealing ProofTranscript ModelComplaint ProofComplaint PropDealing PropComplaint.
From Verif Require Import SpecPanic PropPanic Toy ToyShort.
Import ListNotations.
Open Scope Z_scope.

Section Spec.
Context {X : Oracles} {GO : Grp}.
(** Spec: what node [fst n] with private key [snd n] reads from the dealing *)
Definition read_by (ad : bytes) (k : Z) (d : dealing) (n : Z * Fq) : res opening :=
  m_decrypt_and_check (d_ct d) (d_cm d) ad k (fst n) (snd n) (mul_by_g (snd n)).
(** the openings of the nodes that can read the dealing *)
Definition openings_of (ad : bytes) (k : Z) (d : dealing) (nodes : list (Z * Fq)) : list (Z * opening) :=
  flat_map (fun n => match read_by ad k d n with Ok o => [(fst n, o)] | _ => [] end) nodes.
(** the nodes that cannot *)
Definition left_out (ad : bytes) (k : Z) (d : dealing) (nodes : list (Z * Fq)) : list (Z * Fq) :=
  filter (fun n => negb (is_ok (read_by ad k d n))) nodes.
(** what the others hand to node [n]: their openings of the dealings it cannot read *)
Definition handed_to (ad : bytes) (ds : list (Z * dealing)) (nodes : list (Z * Fq)) (n : Z * Fq) : list (Z * list (Z * opening)) :=
  flat_map (fun kd => match read_by ad (fst kd) (snd kd) n with Ok _ => [] | _ => [(fst kd, openings_of ad (fst kd) (snd kd) nodes)] end) ds.

Lemma openings_in ad k d nodes j o : In (j, o) (openings_of ad k d nodes) <-> exists s, In (j, s) nodes /\ read_by ad k d (j, s) = Ok o.
Proof.
  unfold openings_of. rewrite in_flat_map. split.
  - intros ([j' s] & I & H). destruct (read_by ad k d (j', s)) as [o'| | |] eqn:E; cbn in H; try contradiction.
    destruct H as [H|[]]. injection H as -> ->. eauto.
  - intros (s & I & E). exists (j, s). split; [exact I|]. rewrite E. left. reflexivity.
Qed.
Lemma openings_keys ad k d nodes : keys_ok nodes -> keys_ok (openings_of ad k d nodes).
Proof.
  intros [F N]. split.
  - apply Forall_forall. intros j I. apply in_map_iff in I. destruct I as ([j' o] & <- & I). apply openings_in in I. destruct I as (s & I & _).
    rewrite Forall_forall in F. apply F. apply in_map_iff. exists (j', s). auto.
  - clear F. induction nodes as [|[j s] nodes IH]; [constructor|]. cbn [map fst] in N. apply NoDup_cons_iff in N. destruct N as [N1 N2]. specialize (IH N2).
    unfold openings_of. cbn [flat_map]. fold (openings_of ad k d nodes). destruct (read_by ad k d (j, s)); cbn [app map fst]; try exact IH.
    constructor; [|exact IH]. intros C. apply N1. apply in_map_iff in C. destruct C as ([j' o] & <- & C). apply openings_in in C. destruct C as (s' & C & _).
    apply in_map_iff. exists (j', s'). auto.
Qed.
Lemma openings_count ad k d nodes : (length (openings_of ad k d nodes) + length (left_out ad k d nodes) = length nodes)%nat.
Proof.
  unfold openings_of, left_out. induction nodes as [|n nodes IH]; [reflexivity|]. cbn [flat_map filter]. rewrite app_length.
  destruct (read_by ad k d n); cbn [is_ok negb length]; lia.
Qed.
Lemma handed_lookup ad ds nodes n k d : keys_ok ds -> In (k, d) ds ->
  zlookup k (handed_to ad ds nodes n) = match read_by ad k d n with Ok _ => None | _ => Some (openings_of ad k d nodes) end.
Proof.
  intros [_ N] I.
  assert (O : forall ds, ~ In k (map fst ds) -> zlookup k (handed_to ad ds nodes n) = None).
  { clear. induction ds as [|[k' d'] ds IH]; [reflexivity|]. cbn [map fst]. intros H. unfold handed_to. cbn [flat_map fst snd]. fold (handed_to ad ds nodes n).
    assert (k =? k' = false) as Q by (apply Z.eqb_neq; intros ->; apply H; left; reflexivity).
    destruct (read_by ad k' d' n); cbn [app zlookup]; rewrite ?Q; apply IH; intros C; apply H; right; exact C. }
  induction ds as [|[k' d'] ds IH]; [destruct I|]. cbn [map fst] in N. apply NoDup_cons_iff in N. destruct N as [N1 N2].
  unfold handed_to. cbn [flat_map fst snd]. fold (handed_to ad ds nodes n). destruct I as [I|I].
  - injection I as -> ->. destruct (read_by ad k d n); cbn [app zlookup]; rewrite ?Z.eqb_refl; try reflexivity. apply O, N1.
  - assert (k =? k' = false) as Q. { apply Z.eqb_neq. intros ->. apply N1. apply in_map_iff. exists (k', d). auto. }
    specialize (IH N2 I). destruct (read_by ad k' d' n); cbn [app zlookup]; rewrite ?Q; exact IH.
Qed.
End Spec.

(** every node gets a share of the transcript: what it cannot read it recovers *)
Theorem C100_every_node_gets_its_share :
  forall (X : Oracles) (HX : oracles_ok X) (GO : Grp) (GL : GrpLaws GO) threshold receivers ds op t ad nodes,
  keys_ok ds -> keys_ok nodes -> (forall j s, In (j, s) nodes -> 0 <= j < receivers) -> 0 < threshold ->
  (forall k d, In (k, d) ds -> publicly_verify d op threshold k receivers ad = Ok tt /\ exists l, d_cm d = CSimple l \/ d_cm d = CPedersen l) ->
  new_transcript threshold ds op = Ok t -> op <> TOther ->
  (forall k d, In (k, d) ds -> threshold <= Z.of_nat (length (openings_of ad k d nodes))) ->
  forall j s, In (j, s) nodes -> exists o,
    from_dealings_and_openings ds (handed_to ad ds nodes (j, s)) (tr_commitment t) ad j s (mul_by_g s) = Ok o /\
    c_check_opening (tr_commitment t) j o = Ok true.
Proof.
  intros X HX GO GL th n ds op t ad nodes K Kn Hn Hth V T No En j s I.
  destruct (C44_openings_fill_in X HX GO GL th ds (handed_to ad ds nodes (j, s)) op t ad j s (mul_by_g s) K T No Hth) as [o E].
  - intros k d Hin. destruct (V k d Hin) as [P B]. split.
    + apply (C38_verified_well_formed X HX GO GL) in P. apply P.
    + rewrite (handed_lookup ad ds nodes (j, s) k d K Hin).
      assert (Rest : (exists l, d_cm d = CSimple l \/ d_cm d = CPedersen l) /\ keys_ok (openings_of ad k d nodes) /\
        th <= Z.of_nat (length (openings_of ad k d nodes)) /\ forall i o, In (i, o) (openings_of ad k d nodes) -> c_check_opening (d_cm d) i o = Ok true).
      { split; [exact B|]. split; [apply openings_keys, Kn|]. split; [apply En, Hin|].
        intros i o Hi. apply openings_in in Hi. destruct Hi as (s' & _ & Hi). unfold read_by in Hi. cbn [fst snd] in Hi.
        apply (decrypt_and_check_sound _ _ _ _ _ _ _ _ Hi). }
      destruct (read_by ad k d (j, s)) as [o| | |] eqn:E; try exact Rest.
      unfold read_by in E. cbn [fst snd] in E. unfold private_verify.
      destruct (verified_private HX d op th k n ad j s (mul_by_g s) P (Hn j s I)) as [Q|Q]; [exact Q|].
      exfalso. unfold private_verify in Q. rewrite E in Q. apply publicly_verify_inv in P. destruct P as (_ & N & _). destruct B as [l [B|B]]; rewrite B in *; unfold pts_of in N; cbn [unwrap] in N; destruct l; try congruence; discriminate Q.
  - exists o. split; [exact E|]. apply (C44_combined_opening_sound X GO GL) in E. exact E.
Qed.

(** and if too few nodes can read a dealing, the others all have complaints
    against it that every node accepts *)
Theorem C100_or_the_dealer_is_blamed :
  forall (X : Oracles) (HX : oracles_ok X) (GO : Grp) (GL : GrpLaws GO) threshold receivers ds op ad nodes k d,
  keys_ok ds -> (forall j s, In (j, s) nodes -> 0 <= j < receivers) ->
  (forall k d, In (k, d) ds -> publicly_verify d op threshold k receivers ad = Ok tt) -> In (k, d) ds ->
  (Z.of_nat (length (openings_of ad k d nodes)) < threshold ->
     Z.of_nat (length nodes) - threshold < Z.of_nat (length (left_out ad k d nodes))) /\
  (forall j s seed, In (j, s) (left_out ad k d nodes) ->
     generate_complaints ds ad j s (mul_by_g s) seed = Diverge \/
     exists r c, generate_complaints ds ad j s (mul_by_g s) seed = Ok r /\ In (k, c) r /\ complaint_verify c d k j (mul_by_g s) ad = Ok tt) /\
  (forall j s seed r, In (j, s) nodes -> ~ In (j, s) (left_out ad k d nodes) ->
     generate_complaints ds ad j s (mul_by_g s) seed = Ok r -> forall c, ~ In (k, c) r).
Proof.
  intros X HX GO GL th n ds op ad nodes k d K Hn V I.
  assert (U : forall d', In (k, d') ds -> d' = d).
  { intros d' I'. destruct K as [_ N]. clear -N I I'. induction ds as [|[k' e] ds IH]; [destruct I|]. cbn [map fst] in N. apply NoDup_cons_iff in N. destruct N as [N1 N2].
    assert (W : forall e, In (k, e) ds -> In k (map fst ds)) by (intros e' H; apply in_map_iff; exists (k, e'); auto).
    destruct I as [I|I], I' as [I'|I'].
    - congruence.
    - injection I as -> ->. exfalso. apply N1, (W d'), I'.
    - injection I' as -> ->. exfalso. apply N1, (W d), I.
    - apply IH; assumption. }
  split; [|split].
  - intros H. pose proof (openings_count ad k d nodes). lia.
  - intros j s seed H. unfold left_out in H. apply filter_In in H. destruct H as [H F]. specialize (Hn j s H).
    assert (Fl : m_decrypt_and_check (d_ct d) (d_cm d) ad k j s (mul_by_g s) = Err).
    { destruct (verified_check HX d op th k n ad j s (mul_by_g s) (V k d I) Hn) as [Q|[o Q]]; [exact Q|].
      unfold read_by in F. cbn [fst snd] in F. rewrite Q in F. discriminate F. }
    destruct (C45_outcomes X HX GO GL ds op th n ad j s (mul_by_g s) seed V Hn) as [_ C].
    destruct C as [[r C]|C]; [exists k, d; split; [exact I|exact Fl]| |left; exact C].
    right. pose proof (C45_complaints_exactly_for_failures X HX GO GL _ _ _ _ _ _ _ C) as (_ & C2 & _).
    destruct (proj2 (C2 k)) as [c Hc]; [exists d; auto|]. exists r, c. split; [exact C|]. split; [exact Hc|].
    destruct (C46_generated_complaints_verify X HX GO GL ds op th n ad j s seed r V Hn C k c Hc) as (d' & Hd & Q). rewrite (U d' Hd) in Q. exact Q.
  - intros j s seed r H N C c Hc. apply (C45_complaints_exactly_for_failures X HX GO GL) in C. destruct C as (_ & C & _).
    destruct (proj1 (C k)) as (d' & Hd & F); [eauto|]. rewrite (U d' Hd) in F. apply N. unfold left_out. apply filter_In. split; [exact H|].
    unfold read_by. cbn [fst snd]. rewrite F. reflexivity.
Qed.
Print Assumptions C100_every_node_gets_its_share.
Print Assumptions C100_or_the_dealer_is_blamed.

(** The first theorem asks for commitments that are not wrapped.  Without that it
    fails: wrapping the commitment of a valid dealing changes nothing that the
    checks, the transcript or the readers see, but nobody can recover a share *)
Section Wrapped.
Context {X : Oracles} {GO : Grp} {GL : GrpLaws GO}.
Definition wrapped (d : dealing) : dealing := mkdealing (d_ct d) (CSum (d_cm d)) (d_proof d).
Lemma wrapped_lengths th k d ds1 ds2 : check_lengths (ds1 ++ (k, wrapped d) :: ds2) th = check_lengths (ds1 ++ (k, d) :: ds2) th.
Proof. induction ds1 as [|[i e] ds1 IH]; [reflexivity|]. cbn [app check_lengths]. rewrite IH. reflexivity. Qed.
Lemma wrapped_sum k d ds1 ds2 acc : sum_dealings acc (ds1 ++ (k, wrapped d) :: ds2) = sum_dealings acc (ds1 ++ (k, d) :: ds2).
Proof.
  revert acc. induction ds1 as [|[i e] ds1 IH]; intros acc; [reflexivity|]. cbn [app sum_dealings].
  destruct (c_type (d_cm e)) as [ty| | |]; try reflexivity. rewrite !bind_Ok. destruct (negb _); [reflexivity|].
  destruct (c_points (d_cm e)) as [l| | |]; try reflexivity. rewrite !bind_Ok. destruct (sum_points acc l); try reflexivity. rewrite !bind_Ok. apply IH.
Qed.
Lemma wrapped_interp ty th k d ds1 ds2 : combine_interp ty th (ds1 ++ (k, wrapped d) :: ds2) = combine_interp ty th (ds1 ++ (k, d) :: ds2).
Proof.
  unfold combine_interp.
  assert (mapM (fun kd => c_points (d_cm (snd kd))) (ds1 ++ (k, wrapped d) :: ds2) = mapM (fun kd => c_points (d_cm (snd kd))) (ds1 ++ (k, d) :: ds2)) as ->.
  { induction ds1 as [|e ds1 IH]; [reflexivity|]. cbn [app mapM]. rewrite IH. reflexivity. }
  rewrite !map_app. reflexivity.
Qed.
Lemma wrapped_transcript th k d ds1 ds2 op : new_transcript th (ds1 ++ (k, wrapped d) :: ds2) op = new_transcript th (ds1 ++ (k, d) :: ds2) op.
Proof.
  unfold new_transcript. rewrite wrapped_lengths.
  assert (length (ds1 ++ (k, wrapped d) :: ds2) = length (ds1 ++ (k, d) :: ds2)) as -> by (rewrite !app_length; reflexivity).
  rewrite !wrapped_interp. destruct (check_lengths _ th); [|reflexivity..]. rewrite !bind_Ok. destruct op; try reflexivity.
  destruct (go_make th); try reflexivity. rewrite !bind_Ok, wrapped_sum. reflexivity.
Qed.
End Wrapped.
Theorem C100_wrapped_commitments_refuted :
  forall (X : Oracles) (HX : oracles_ok X) (GO : Grp) (GL : GrpLaws GO) threshold receivers op ad k d,
  publicly_verify d op threshold k receivers ad = Ok tt ->
  publicly_verify (wrapped d) op threshold k receivers ad = Ok tt /\
  (forall n, read_by ad k (wrapped d) n = read_by ad k d n) /\
  (forall ds1 ds2, new_transcript threshold (ds1 ++ (k, wrapped d) :: ds2) op = new_transcript threshold (ds1 ++ (k, d) :: ds2) op) /\
  (forall os i, threshold <= Z.of_nat (length os) -> reconstruct_share (wrapped d) os i = Panic) /\
  (forall ds os provided tc i s, threshold <= Z.of_nat (length os) -> zlookup k provided = Some os ->
     from_dealings_and_openings ((k, wrapped d) :: ds) provided tc ad i s (mul_by_g s) = Panic).
Proof.
  intros X HX GO GL th n op ad k d V.
  assert (R : forall os i, th <= Z.of_nat (length os) -> reconstruct_share (wrapped d) os i = Panic).
  { intros os i L. apply (C80_reconstruct_panics_iff X GO). right. apply publicly_verify_inv in V. destruct V as (A & _). split; [|right; intros []].
    change (pts_of (d_cm (wrapped d))) with (pts_of (d_cm d)). lia. }
  split; [exact V|]. split; [reflexivity|]. split; [intros; apply wrapped_transcript|]. split; [exact R|].
  intros ds os pr tc i s L E. unfold from_dealings_and_openings. cbn [mapM fst snd]. rewrite E, (R os i L). reflexivity.
Qed.
Print Assumptions C100_wrapped_commitments_refuted.

(** test values: three nodes, threshold 2, the dealing of node 1 cannot be read by node 0 *)
#[local] Existing Instance shortX.
#[local] Existing Instance toyG.
Definition ex_nodes : list (Z * Fq) := [(0, of_Z q 21); (1, of_Z q 22); (2, of_Z q 24)].
Definition ex_ds : res (list (Z * dealing)) :=
  do d <- new_dealing SRandom [1] 2 (map (fun n => mul_by_g (snd n)) ex_nodes) 0 (str "ad");
  do d' <- new_dealing SRandom [2] 2 (map mul_by_g [of_Z q 23; of_Z q 22; of_Z q 24]) 1 (str "ad");
  Ok [(0, d); (1, d')].
Definition ex_fine (ds : list (Z * dealing)) : bool :=
  bytes_eqb (map fst ds) [0; 1] &&
  forallb (fun kd => is_ok (publicly_verify (snd kd) TRandom 2 (fst kd) 3 (str "ad")) && (2 <=? Z.of_nat (length (openings_of (str "ad") (fst kd) (snd kd) ex_nodes)))
    && match d_cm (snd kd) with CPedersen _ => true | _ => false end) ds &&
  is_ok (new_transcript 2 ds TRandom) &&
  existsb (fun kd => Nat.eqb (length (left_out (str "ad") (fst kd) (snd kd) ex_nodes)) 1) ds.
Example C100_ex : exists ds t, keys_ok ds /\ keys_ok ex_nodes /\ (forall j s, In (j, s) ex_nodes -> 0 <= j < 3) /\
  (forall k d, In (k, d) ds -> publicly_verify d TRandom 2 k 3 (str "ad") = Ok tt /\ exists l, d_cm d = CSimple l \/ d_cm d = CPedersen l) /\
  new_transcript 2 ds TRandom = Ok t /\
  (forall k d, In (k, d) ds -> 2 <= Z.of_nat (length (openings_of (str "ad") k d ex_nodes))) /\
  exists k d, In (k, d) ds /\ length (left_out (str "ad") k d ex_nodes) = 1%nat.
Proof.
  assert (B : match ex_ds with Ok ds => ex_fine ds | _ => false end = true) by (vm_compute; reflexivity).
  destruct ex_ds as [ds| | |]; try discriminate B. unfold ex_fine in B. apply andb_true_iff in B. destruct B as [B B4].
  apply andb_true_iff in B. destruct B as [B B3]. apply andb_true_iff in B. destruct B as [B1 B2].
  apply bytes_eqb_eq in B1. rewrite forallb_forall in B2. apply existsb_exists in B4. destruct B4 as ([k d] & I & B4). apply Nat.eqb_eq in B4. cbn [fst snd] in B4.
  destruct (new_transcript 2 ds TRandom) as [t| | |] eqn:T; try discriminate B3. exists ds, t.
  assert (Kz : forall l : list Z, l = [0; 1] \/ l = [0; 1; 2] -> Forall int64_ok l /\ NoDup l).
  { intros l [->| ->]; (split; [repeat (constructor; [unfold int64_ok; lia|]); constructor|repeat (constructor; [intros C; cbn in C; lia|]); constructor]). }
  assert (H : forall k d, In (k, d) ds -> publicly_verify d TRandom 2 k 3 (str "ad") = Ok tt /\ (exists l, d_cm d = CPedersen l) /\ 2 <= Z.of_nat (length (openings_of (str "ad") k d ex_nodes))).
  { intros k' d' I'. specialize (B2 _ I'). cbn [fst snd] in B2. apply andb_true_iff in B2. destruct B2 as [B2 C]. apply andb_true_iff in B2. destruct B2 as [A B].
    split; [destruct (publicly_verify d' TRandom 2 k' 3 (str "ad")) as [[]| | |]; [reflexivity|discriminate A..]|]. split; [|apply Z.leb_le, B].
    destruct (d_cm d'); try discriminate C. eauto. }
  split; [unfold keys_ok; apply Kz; auto|]. split; [unfold keys_ok; apply Kz; auto|].
  split; [intros j s C; cbn in C; destruct C as [C|[C|[C|[]]]]; injection C as <- _; lia|].
  split; [intros k' d' I'; destruct (H k' d' I') as (P & [l Q] & _); split; [exact P|exists l; auto]|].
  split; [exact T|]. split; [intros k' d' I'; apply (H k' d' I')|]. exists k, d. auto.
Qed.
