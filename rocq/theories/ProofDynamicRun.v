(** Rounds with changing thresholds and numbers of nodes and of dealers complete,
    or are refused. *)
From Coq Require Import ZArith Lia Bool String List Ring Field Sorted.
From Verif Require Import Base BaseFacts Zmod Fields ModelScalar ProofScalar ModelXmd ModelRo ProofRand SpecPoly ModelPoly ProofPoly
  ProofLagrange ProofSecrecy ModelGroup GroupFacts SpecGroup ModelCommit ProofCommit ModelZk ProofZk ModelMega ProofMega
  ModelDealing SpecDealing ProofDealing ProofTranscript ProofHonest ModelComplaint ProofComplaint ModelKey ModelSign SpecSign ProofSign
  ModelProtocol ProofProtocol ProofRun ProofCorrupt SpecDrivers ProofDynamic.
Import ListNotations.
Open Scope Z_scope.

(** a result that is no success, and a panic only if [C] *)
Definition no3 {A} (C : Prop) (r : res A) : Prop := match r with Ok _ => False | Err => True | Panic => C | Diverge => True end.
Lemma no3_bind {A B} (P : A -> Prop) C r (k : A -> res B) : ok3 P C r -> (forall a, r = Ok a -> P a -> no3 C (k a)) -> no3 C (bind r k).
Proof. destruct r as [a| | |]; cbn; auto. Qed.

Section Any.
Context {X : Oracles} (HX : oracles_ok X) {GO : Grp} {GL : GrpLaws GO}.
Context (cbor_cm : commitment -> bytes).

(** a dealing that one of [m] dealers made and that also passes as the next dealer's *)
Definition mism (m : Z) (su : setup) : Prop := exists s seed k d op, 0 <= k < m /\
  new_dealing s seed (su_threshold su) (su_pk su) k (su_ad su) = Ok d /\
  publicly_verify d op (su_threshold su) (k + 1) (su_receivers su) (su_ad su) = Ok tt.

Lemma deal_loop_any su op m : su_ready su -> forall shs i rn, 0 <= i -> i + Z.of_nat (length shs) <= m ->
  (forall j s, nth_error shs j = Some s -> share_consistent s op (i + Z.of_nat j)) ->
  ok3 (fun r => dealt_all su (fst r) shs /\ map fst (fst r) = map (fun j => i + Z.of_nat j) (seq 0 (length shs)) ) (mism m su) (deal_loop su op i shs rn).
Proof.
  intros R. pose proof R as (Hk & Ht & L). pose proof (ready_pk su R) as Lp. induction shs as [|s shs IH]; intros i rn Hi Hn Hc; cbn [deal_loop].
  { cbn. split; [constructor|reflexivity]. }
  cbn [length] in Hn. destruct (seed_from_rng_total HX rn) as (sd & rn' & -> & _). rewrite bind_Ok.
  pose proof (Hc O s eq_refl) as C. change (Z.of_nat 0) with 0 in C. rewrite Z.add_0_r in C. assert (Hs : s <> SOther) by (intros ->; exact C).
  destruct (new_dealing_cases HX s sd (su_threshold su) (su_pk su) i (su_ad su) Hs ltac:(lia)) as [(d & Ed & D)|E]; [|rewrite E; exact I].
  rewrite Ed, bind_Ok. pose proof (dealt_publicly_verifies s op _ _ _ _ d (proj1 Ht) D C) as V. rewrite Lp in V.
  apply (ok3_bind (fun _ => True)).
  { unfold test_public. rewrite V. cbn [must_pass bind].
    destruct (public_total HX _ _ _ _ _ _ (i + 1) (su_receivers su) (su_ad su) V) as [E|E]; rewrite E.
    - cbn. exists s, sd, i, d, op. split; [lia|]. split; [exact Ed|exact E].
    - cbn [must_fail bind]. rewrite !(public_receivers _ _ _ _ _ _ _ (su_receivers su + 1) _ V) by lia. exact I. }
  intros [] _ _. destruct (receiver_info_ok su R) as (ri & -> & Lr & Hr). rewrite bind_Ok.
  destruct (mapM_units (fun r => let '(sk, pk, j) := r in private_verify d sk pk (su_ad su) i j) ri) as [us ->].
  { intros [[sk pk] j] Hin. destruct (Hr _ _ _ Hin) as (n & -> & -> & E1 & E2). apply (dealt_privately_verifies s _ _ _ _ d n sk (proj1 Ht) D E2). }
  rewrite bind_Ok. eapply ok3_bind; [apply (IH (i + 1) rn'); [lia|lia|]|].
  { intros j s' Hj. specialize (Hc (S j) s' Hj). replace (i + 1 + Z.of_nat j) with (i + Z.of_nat (S j)) by lia. exact Hc. }
  intros [r rn2] _ [H1 H2]. cbn [fst] in H1, H2. destruct ri as [|x ri]; [cbn [length] in Lr; lia|]. cbn. split.
  - constructor; [exact D|exact H1].
  - rewrite H2, Z.add_0_r. f_equal. rewrite <- seq_shift, map_map. apply map_ext. intros j. lia.
Qed.
Lemma create_any su op pair shs dealers nc seed : su_ready su -> blen seed = 32 -> shs <> [] -> 1 <= dealers ->
  (forall s, In s shs -> sh_pair s = pair) -> (forall j s, nth_error shs j = Some s -> share_consistent s op (Z.of_nat j)) ->
  ok3 (fun ds => all_settled su op pair ds /\ (forall k d, In (k, d) ds -> 0 <= k < Z.of_nat (length shs)) /\
        Z.of_nat (length ds) = Z.min dealers (Z.of_nat (length shs)) /\
        (nc <= 0 -> forall k d, In (k, d) ds -> settled su op pair k d []))
    (mism (Z.of_nat (length shs)) su \/ zero_draw seed) (create_dealings su shs dealers nc op seed).
Proof.
  intros R Ls Ne Hd1 Hp Hc. pose proof R as (Hk & Ht & _). unfold create_dealings. rewrite seed_rng_ok by exact Ls. rewrite bind_Ok.
  eapply ok3_bind; [apply (ok3_C _ (mism (Z.of_nat (length shs)) su)); [apply (deal_loop_any su op _ R shs 0 _); [lia|lia|exact Hc]|auto]|].
  intros [ds rn] Ed [H1 H2]. apply (deal_loop_key HX) in Ed. cbn [fst] in H1, H2. rewrite (map_ext _ Z.of_nat) in H2 by (intros j; lia).
  assert (Ld : length ds = length shs) by (rewrite <- (map_length fst ds), H2, map_length, seq_length; reflexivity).
  assert (Ln : 0 < Z.of_nat (length shs)) by (destruct shs; [congruence|cbn [length]; lia]).
  pose proof (dealt_all_settled su op pair shs ds R H1 H2 Hp Hc) as Hd. pose proof (seq_asc ds (length shs) H2) as As.
  destruct (delete_down_total ds dealers rn ltac:(lia)) as (ds2 & rn2 & E2).
  assert (K2 : rng_key rn2 = rng_key rn).
  { clear - E2 HX. revert E2. unfold delete_down. generalize (S (length ds)). intros fuel. revert ds rn. induction fuel as [|fuel IH]; intros ds rn H; cbn [delete_loop] in H;
      destruct (Z.of_nat (length ds) <=? dealers); try discriminate; try (injection H as _ <-; reflexivity).
    destruct ds as [|e ds0] eqn:E; [discriminate|]. rewrite <- E in *. pose proof (uint32_key rn) as Hk. destruct (rng_uint32 rn) as [u rn1]. cbn [snd] in Hk.
    rewrite (IH _ _ H). exact Hk. }
  assert (L2 : Z.of_nat (length ds2) = Z.min dealers (Z.of_nat (length shs))).
  { destruct (delete_down_incl _ _ _ _ _ As E2) as (_ & I2 & U2 & V2). rewrite Ld in V2.
    destruct (Z_le_gt_dec dealers (Z.of_nat (length shs))) as [Q|Q]; [specialize (V2 Q); lia|].
    unfold delete_down in E2. cbn [delete_loop] in E2. destruct (Z.leb_spec (Z.of_nat (length ds)) dealers); [|lia]. injection E2 as <- _. lia. }
  destruct (delete_down_incl _ _ _ _ _ As E2) as (A2 & I2 & _ & _). rewrite E2, bind_Ok.
  assert (N2 : ds2 <> []) by (intros ->; cbn [length] in L2; lia).
  eapply ok3_bind; [apply (ok3_C _ False); [apply damage_loop_ok; exact N2|contradiction]|].
  intros [bad rn3] E3 K3. cbn [snd] in K3.
  assert (Z0 : nc <= 0 -> bad = []).
  { intros Hn. clear - E3 Hn. assert (Q : nc <=? Z.of_nat (@length (Z * dealing) []) = true) by (apply Z.leb_le; cbn [length]; lia).
    destruct rand_fuel; cbn [damage_loop] in E3; rewrite Q in E3; injection E3 as <- _; reflexivity. }
  eapply ok3_C; [eapply ok3_mono; [apply (corrupt_loop_ok HX su op pair seed R bad ds2 rn3)|]|].
  - rewrite K3, K2, Ed. reflexivity.
  - split; [exact A2|]. intros k d Hin. destruct (Hd k d (I2 _ Hin)) as (B & _ & S). split; [lia|]. exists []. exact S.
  - apply (damage_loop_asc _ _ _ _ _ _ _ E3). constructor.
  - apply (damage_loop_in _ _ _ _ _ _ _ E3). intros e [].
  - intros k d Hin. apply (damage_loop_in _ _ _ _ _ _ _ E3) in Hin; [|intros e []]. apply (Hd k d (I2 _ Hin)).
  - intros r Er [A1 A4]. split; [exact A1|]. split; [|split].
    + intros k d Hin. apply (in_map fst) in Hin. rewrite A4 in Hin. cbn [fst] in Hin. apply in_map_iff in Hin. destruct Hin as ([k' d'] & <- & Hin). apply (Hd k' d' (I2 _ Hin)).
    + rewrite <- (map_length fst r), A4, map_length. exact L2.
    + intros Hn k d Hin. rewrite (Z0 Hn) in Er. cbn [corrupt_loop] in Er. apply Ok_inj in Er. subst r. apply (Hd k d (I2 _ Hin)).
  - auto.
Qed.

(** what the inputs of a round have to be: commitments of the right kind *)
Definition op_inputs (op : operation) : Prop :=
  match op with
  | TRandom => True
  | TReshareMasked p => p = CPedersen (pts_of p)
  | TReshareUnmasked p => p = CSimple (pts_of p) /\ pts_of p <> []
  | TTimes l r => l = CSimple (pts_of l) /\ r = CPedersen (pts_of r)
  | TOther => False
  end.
(** how many dealings it needs *)
Definition op_needs (op : operation) : Z :=
  match op with
  | TRandom | TOther => 0
  | TReshareMasked p | TReshareUnmasked p => Z.of_nat (length (pts_of p))
  | TTimes l r => Z.of_nat (length (pts_of l)) + Z.of_nat (length (pts_of r)) - 1
  end.
Definition bad_deal (m : Z) (su : setup) : Prop := mism m su \/ exists s, seed_derive (su_seed su) (round_dst (su_round su)) = Ok s /\ zero_draw s.

Lemma transcript_refused su op pair ds : su_ready su -> all_settled su op pair ds -> op_inputs op -> Z.of_nat (length ds) < op_needs op ->
  new_transcript (su_threshold su) ds op = Err.
Proof.
  intros R [_ A] Oi Hn. assert (Hl : check_lengths ds (su_threshold su) = Ok tt).
  { apply check_lengths_ok. intros [k d] Hin. destruct (A k d Hin) as (_ & ts & _ & (l & E & L) & _). unfold dl_pts. cbn [snd]. rewrite E, pts_kcm. split; [apply is_cm_kcm|exact L]. }
  unfold new_transcript. rewrite Hl, bind_Ok. destruct op as [|p|p|l r|]; cbn [op_inputs op_needs] in *; try lia; try contradiction.
  - destruct Oi as [Oi _]. rewrite Oi. cbn [c_type c_len c_points unwrap bind]. rewrite Z.eqb_refl. cbn [negb].
    destruct (Z.ltb_spec (Z.of_nat (length ds)) (Z.of_nat (length (pts_of p)))); [reflexivity|lia].
  - rewrite Oi. cbn [c_type c_len c_points unwrap bind]. rewrite Z.eqb_refl. cbn [negb].
    destruct (Z.ltb_spec (Z.of_nat (length ds)) (Z.of_nat (length (pts_of p)))); [reflexivity|lia].
  - destruct Oi as [El Er]. rewrite El, Er. cbn [c_type c_len c_points unwrap bind]. rewrite !Z.eqb_refl. cbn [negb].
    destruct (Z.ltb_spec (Z.of_nat (length ds)) (Z.of_nat (length (pts_of l)) + Z.of_nat (length (pts_of r)) - 1)); [reflexivity|lia].
Qed.

Lemma round_run_any su op pair shs dealers nc : su_ready su -> (nc <= 0 \/ 2 * su_threshold su <= su_receivers su) ->
  shs <> [] -> Z.of_nat (length shs) <= 2^63 -> 1 <= dealers ->
  (forall s, In s shs -> sh_pair s = pair) -> op_single op = negb pair ->
  (forall j s, nth_error shs j = Some s -> share_consistent s op (Z.of_nat j)) -> op_inputs op ->
  (op_needs op <= Z.min dealers (Z.of_nat (length shs)) -> ok3 (fun _ => True) (bad_deal (Z.of_nat (length shs)) su) (round_run cbor_cm su shs dealers nc op)) /\
  (Z.min dealers (Z.of_nat (length shs)) < op_needs op -> no3 (bad_deal (Z.of_nat (length shs)) su) (round_run cbor_cm su shs dealers nc op)).
Proof.
  intros R H2 Ne Ln Hd1 Hp Ho Hc Oi. unfold round_run, next_dealing_seed.
  destruct (new_seed_total HX (su_seed su) (round_dst (su_round su))) as (s1 & E1 & L1). rewrite E1, !bind_Ok.
  set (su1 := mksetup _ _ _ _ _ _ _). assert (R1 : su_ready su1) by exact R.
  change (su_receivers su) with (su_receivers su1) in H2. change (su_threshold su) with (su_threshold su1) in H2.
  assert (Cr : ok3 (fun ds => all_settled su1 op pair ds /\ (forall k d, In (k, d) ds -> 0 <= k < Z.of_nat (length shs)) /\
        Z.of_nat (length ds) = Z.min dealers (Z.of_nat (length shs)) /\ (nc <= 0 -> forall k d, In (k, d) ds -> settled su1 op pair k d []))
      (bad_deal (Z.of_nat (length shs)) su) (create_dealings su1 shs dealers nc op s1)).
  { eapply ok3_C; [apply (create_any su1 op pair shs dealers nc s1 R1 L1 Ne Hd1 Hp Hc)|]. intros [M|M]; [left; exact M|right; eauto]. }
  clearbody su1. split.
  2:{ intros Hn. eapply no3_bind; [exact Cr|]. intros ds _ (A & _ & L & _). rewrite <- L in Hn.
      rewrite (transcript_refused su1 op pair ds R1 A Oi Hn). exact I. }
  intros Hn. eapply ok3_bind; [exact Cr|]. intros ds _ (A & Kr & L & A0). clear Cr R. pose proof R1 as (Hk & Ht & Lsk). rewrite <- L in Hn.
  assert (K : keys_ok ds).
  { split; [|apply asc_nodup, A]. apply Forall_forall. intros k Hin. apply in_map_iff in Hin. destruct Hin as ([k' d] & <- & Hin). specialize (Kr k' d Hin). unfold int64_ok. cbn [fst]. lia. }
  assert (Hd : forall kd, In kd ds -> (exists l, d_cm (snd kd) = kcm pair l /\ Z.of_nat (length l) = su_threshold su1) /\
      publicly_verify (snd kd) op (su_threshold su1) (fst kd) (su_receivers su1) (su_ad su1) = Ok tt).
  { intros [k d] Hin. destruct A as [_ A]. destruct (A k d Hin) as (_ & ts & V & C & _). split; [exact C|exact V]. }
  destruct (new_transcript_ok (su_threshold su1) ds op K) as [t Et].
  - intros ->. cbn [length] in L. destruct shs; [congruence|]. cbn [length] in L. lia.
  - lia.
  - intros kd Hin. destruct (Hd kd Hin) as [(l & E & Ll) _]. unfold dl_pts. rewrite E, pts_kcm. split; [apply is_cm_kcm|exact Ll].
  - destruct op as [|p|p|l r|]; cbn [op_inputs op_needs op_ready op_single] in *; try contradiction.
    + destruct pair; [|discriminate]. intros kd Hin. destruct (Hd kd Hin) as [(l & E & _) _]. unfold dl_pts. rewrite E. reflexivity.
    + destruct Oi as [Oi Np]. split; [rewrite Oi at 1; reflexivity|]. split; [exact Np|]. split; [lia|].
      intros kd Hin. destruct (Hd kd Hin) as [_ V]. apply publicly_verify_inv in V. destruct V as (_ & _ & _ & _ & _ & _ & _ & _ & _ & V).
      unfold dl_pts. apply V. exact Oi.
    + rewrite Oi. cbn [unwrap pts_of]. split; [reflexivity|lia].
    + destruct Oi as [El Er]. split; [rewrite El at 1; reflexivity|]. split; [rewrite Er at 1; reflexivity|lia].
  - assert (No : op <> TOther) by (intros ->; exact Oi). rewrite Et, bind_Ok. unfold round_new, open_dealings, go_make.
    destruct (Z.ltb_spec (su_receivers su1) 0); [lia|]. rewrite bind_Ok.
    destruct (shape_weights _ _ _ _ (new_transcript_shape _ _ _ _ K (Z.lt_le_incl _ _ (proj1 Ht)) No Et)) as (pts & cs & Lp & W). rewrite Ho, negb_involutive in W.
    assert (U : unwrap (tr_commitment t) = kcm pair pts).
    { destruct W as (_ & [(-> & -> & _)|(-> & _)] & _); [reflexivity|]. cbn [unwrap]. apply unwrap_kcm. }
    assert (Ec : c_curve (tr_commitment t) = Ok tt).
    { unfold c_curve, c_points. rewrite U. destruct pts as [|P pts]; [cbn [length] in Lp; lia|]. destruct pair; reflexivity. }
    rewrite Ec, bind_Ok. destruct (new_seed_total HX (cbor_cm (tr_commitment t)) from_bytes_dst) as (s2 & E2 & _).
    unfold seed_from_bytes. unfold seed_derive in E2. rewrite E2, bind_Ok. destruct (new_seed_total HX s2 opening_rng_dst) as (s3 & -> & L3). rewrite bind_Ok.
    rewrite seed_rng_ok by exact L3. rewrite bind_Ok.
    assert (Uc : exists c, c_clone (tr_commitment t) = Ok c) by (unfold c_clone; rewrite U; destruct pair; eexists; reflexivity). destruct Uc as [c Uc].
    assert (Op : ok3 (fun _ => True) False (open_loop su1 ds (tr_commitment t) s2 (seq 0 (Z.to_nat (su_receivers su1))) (mkrng s3 0))).
    { assert (Hi : forall i, In i (seq 0 (Z.to_nat (su_receivers su1))) -> (i < length (su_sk su1))%nat) by (intros i Hin; apply in_seq in Hin; lia).
      destruct H2 as [H2|H2]; [|apply (open_loop_corrupt_ok HX su1 pair ds op t s2 R1 H2 K No Ho Et A); exact Hi].
      destruct (open_loop_ok su1 ds op t s2 R1 K No Et) with (is := seq 0 (Z.to_nat (su_receivers su1))) (rn := mkrng s3 0) as [os ->]; [|exact Hi|exact I].
      intros [k d] Hin. destruct (Hd _ Hin) as [(l & E & Ll) _]. cbn [fst snd] in *. split; [unfold kind_ok; rewrite Ho, E; destruct pair; reflexivity|].
      intros i sk Hp'. destruct (settled_private su1 op pair k d [] i sk R1 (A0 H2 k d Hin) Hp') as [F|[P _]]; [|exact P].
      destruct (A0 H2 k d Hin) as (_ & _ & _ & _ & Hs). destruct (proj2 (Hs i sk Hp') (fun H => H)) as [o Eo]. congruence. }
    eapply (ok3_bind (fun _ => True)); [|intros r _ _; exact I].
    eapply (ok3_bind (fun _ => True)); [eapply ok3_C; [exact Op|contradiction]|]. intros os _ _. rewrite Uc. exact I.
Qed.
End Any.
