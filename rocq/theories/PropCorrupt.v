(** C71: protocol runs complete although dealings are corrupted. *)
From Coq Require Import ZArith Lia Bool String List.
From Verif Require Import Base BaseFacts Zmod Fields ModelScalar ModelXmd ModelRo ProofRand SpecPoly ModelPoly ProofPoly ModelGroup GroupFacts SpecGroup ModelCommit
  ModelZk ModelMega ProofMega ModelDealing SpecDealing ProofDealing ProofTranscript ModelComplaint ProofComplaint ModelKey ModelSign SpecSign ProofSign ModelProtocol ProofProtocol ProofHonest ProofRun ProofCorrupt PropProtocol.
From Verif Require Toy.
Import ListNotations.
Open Scope Z_scope.

(** C71: with at least 2*th nodes, any number of corrupted dealings per round
    and any seed the setup does not fail.  The drivers' own checks panic only
    at a hash collision or if a corruption may be drawn as zero; rejection
    sampling (and the search for enough different dealings to corrupt) is the
    only source of nontermination *)
Theorem C71_setup_completes_with_corruption :
  forall (X : Oracles) (HX : oracles_ok X) (GO : Grp) (GL : GrpLaws GO) (cbor_cm : commitment -> bytes) (n th nc : Z) (seed : bytes),
  0 < th -> 2 * th <= n -> n <= 2^63 -> blen seed = 32 ->
  (exists s, new_sig_setup cbor_cm n th nc seed = Ok s) \/ new_sig_setup cbor_cm n th nc seed = Diverge \/
  (new_sig_setup cbor_cm n th nc seed = Panic /\
    ((exists su, new_setup n th seed = Ok su /\ pop_collision (su_ad su) n) \/
     exists round s pos sd rn rn', 0 <= round < 7 /\ seed_derive seed (round_dst round) = Ok s /\
       seed_from_rng (mkrng s pos) = Ok (sd, rn) /\ random_scalar (mkrng sd 0) = Ok (fzero, rn'))).
Proof.
  intros X HX GO GL cb n th nc seed H1 H2 H3 H4.
  pose proof (new_sig_setup_corrupt_ok HX cb n th nc seed H1 H2 H3 H4) as H.
  destruct (new_sig_setup cb n th nc seed) as [s| | |]; cbn [ok3] in H; [left; eauto|contradiction| |auto].
  right. right. split; [reflexivity|]. destruct H as [(su & E & M)|(rd & s & Hr & Es & pos & sd & rn & rn' & E1 & E2)].
  - left. exists su. split; [exact E|]. apply (new_setup_inv _ _ _ _ H3) in E. destruct E as (_ & _ & N & _). rewrite <- N. apply (misattributed_collision HX _ _ _ _ M).
  - right. exists rd, s, pos, sd, rn, rn'. auto.
Qed.
Print Assumptions C71_setup_completes_with_corruption.

(** what CreateDealings hands out: every dealing is valid in public, and at most
    [th] receivers cannot use it, however many dealings are corrupted *)
Theorem C71_created_dealings :
  forall (X : Oracles) (HX : oracles_ok X) (GO : Grp) (GL : GrpLaws GO) su op pair shs nc seed ds,
  su_pk su = map mul_by_g (su_sk su) -> Z.of_nat (length (su_sk su)) = su_receivers su -> su_receivers su <= 2^63 ->
  0 < su_threshold su <= su_receivers su -> blen seed = 32 -> Z.of_nat (length shs) = su_receivers su ->
  (forall s, In s shs -> sh_pair s = pair) -> (forall j s, nth_error shs j = Some s -> share_consistent s op (Z.of_nat j)) ->
  create_dealings su shs (su_receivers su) nc op seed = Ok ds ->
  map fst ds = map Z.of_nat (seq 0 (length shs)) /\
  forall k d, In (k, d) ds -> publicly_verify d op (su_threshold su) k (su_receivers su) (su_ad su) = Ok tt /\
    exists ts, NoDup ts /\ Z.of_nat (length ts) <= su_threshold su /\
      forall i sk, nth_error (su_sk su) i = Some sk ->
        private_verify d sk (mul_by_g sk) (su_ad su) k (Z.of_nat i) = if mem (Z.of_nat i) ts then Err else Ok tt.
Proof.
  intros X HX GO GL su op pair shs nc seed ds Hpk Hl Hn Ht Ls Ln Hp Hc H.
  assert (R : su_ready su) by (split; [split; [exact Hpk|lia]|auto]).
  pose proof (create_corrupt_ok HX su op pair shs nc seed R Ls Ln Hp Hc) as Q. rewrite H in Q. cbn [ok3] in Q. destruct Q as [[_ A] Kf].
  split; [exact Kf|]. intros k d Hin. destruct (A k d Hin) as (_ & ts & V & (l & U & Ll) & N & Lt & Hd). split; [exact V|]. exists ts. split; [exact N|]. split; [exact Lt|].
  intros i sk Es. pose proof (keys_pk _ _ _ (proj1 R) Es) as Ep. destruct (Hd i sk Ep) as [D1 D2].
  destruct (pv_mdc su k d i sk pair l U ltac:(intros ->; cbn [length] in Ll; lia)) as [P1 P2].
  destruct (mem (Z.of_nat i) ts) eqn:M; [apply P2, D1, mem_in, M|]. destruct D2 as [o Eo]; [intros C; apply mem_in in C; congruence|]. apply (P1 o Eo).
Qed.
Print Assumptions C71_created_dealings.

(** the bound cannot be lowered to 2*th-1, which suffices without corruption:
    a single node with a corrupted dealing has nobody to help it, and no seed
    leads to a finished setup *)
Section One.
Context {X : Oracles} (HX : oracles_ok X) {GO : Grp} {GL : GrpLaws GO}.
Context (cbor_cm : commitment -> bytes).
Lemma one_key {A} (l : list (Z * A)) : asc l -> (forall e, In e l -> 0 <= fst e < 1) -> l = [] \/ exists a, l = [(0, a)].
Proof.
  destruct l as [|[i a] [|[j b] l]]; intros Ha Hr; [auto| |].
  - right. exists a. pose proof (Hr _ (or_introl eq_refl)) as H. cbn [fst] in H. replace i with 0 by lia. reflexivity.
  - exfalso. apply asc_cons in Ha. destruct Ha as [_ Ha]. pose proof (Ha _ (or_introl eq_refl)). pose proof (Hr _ (or_introl eq_refl)).
    pose proof (Hr _ (or_intror (or_introl eq_refl))). cbn [fst] in *. lia.
Qed.
Lemma damage_length fuel : forall ds acc num rn r rn', damage_loop fuel ds acc num rn = Ok (r, rn') -> num <= Z.of_nat (length r).
Proof.
  induction fuel as [|fuel IH]; intros ds acc num rn r rn' H; cbn [damage_loop] in H; destruct (Z.leb_spec num (Z.of_nat (length acc))).
  - injection H as <- <-. assumption.
  - discriminate.
  - injection H as <- <-. assumption.
  - destruct ds as [|d0 ds0] eqn:E; [discriminate|]. rewrite <- E in *. destruct (rng_uint32 rn) as [u rn1].
    apply bind_inv in H. destruct H as (e & _ & H). apply (IH _ _ _ _ _ _ H).
Qed.
Lemma create_one su s nc op seed ds : su_receivers su = 1 -> su_threshold su = 1 -> 1 <= nc -> create_dealings su [s] 1 nc op seed = Ok ds ->
  exists d sk pk, ds = [(0, d)] /\ nth_error (su_sk su) 0 = Some sk /\ nth_error (su_pk su) 0 = Some pk /\ private_verify d sk pk (su_ad su) 0 0 = Err.
Proof.
  intros Hn Ht Hc H. unfold create_dealings in H. apply bind_inv in H. destruct H as (rn & _ & H). apply bind_inv in H. destruct H as ([ds1 rn1] & E1 & H).
  apply bind_inv in H. destruct H as ([ds2 rn2] & E2 & H). apply bind_inv in H. destruct H as ([bad rn3] & E3 & H).
  apply deal_loop_spec in E1. destruct E1 as [A1 R1]. destruct (delete_down_incl _ _ _ _ _ A1 E2) as (A2 & I2 & _).
  assert (R2 : forall e, In e ds2 -> 0 <= fst e < 1) by (intros [k d] Hin; destruct (R1 _ _ (I2 _ Hin)) as [B _]; cbn [length] in B; cbn [fst]; lia).
  pose proof (damage_length _ _ _ _ _ _ _ E3) as Lb. pose proof (damage_loop_in _ _ _ _ _ _ _ E3 ltac:(intros e [])) as Ib.
  pose proof (damage_loop_asc _ _ _ _ _ _ _ E3 ltac:(constructor)) as Ab.
  destruct (one_key bad Ab ltac:(intros e He; apply R2, Ib, He)) as [->|[d ->]]; [cbn [length] in Lb; lia|].
  destruct (one_key ds2 A2 R2) as [->|[d2 ->]]; [destruct (Ib _ (or_introl eq_refl))|].
  cbn [corrupt_loop] in H. pose proof (uint32_nonneg HX rn3) as Hu. destruct (rng_uint32 rn3) as [u rn4]. cbn [fst] in Hu. rewrite Ht, Hn in H. cbn [Z.eqb] in H.
  rewrite Z.rem_1_r in H. apply bind_inv in H. destruct H as ([ts rn5] & E4 & H).
  pose proof (target_loop_ok HX 1 (0 + 1) ltac:(lia) ltac:(lia) rand_fuel [] rn4 ltac:(constructor) ltac:(cbn [length]; lia) ltac:(intros e [])) as Q.
  rewrite E4 in Q. cbn [ok3 fst snd] in Q. destruct Q as (Q1 & Q2 & Q3 & _).
  destruct (one_key ts Q1 Q3) as [->|[[] ->]]; [cbn [length] in Q2; lia|].
  apply bind_inv in H. destruct H as ([sd rn6] & _ & H). apply bind_inv in H. destruct H as (b & _ & H). apply bind_inv in H. destruct H as ([] & Ec & H).
  cbn [zset] in H. apply Ok_inj in H. subst ds. unfold check_corrupted in Ec. apply bind_inv in Ec. destruct Ec as (ri & Er & Ec). apply bind_inv in Ec. destruct Ec as (us & Em & _).
  unfold receiver_info in Er. rewrite Hn in Er. change (go_make 1) with (Ok 1%nat) in Er. rewrite bind_Ok in Er. cbn [seq mapM] in Er.
  apply bind_inv in Er. destruct Er as (a & Ea & Er). apply bind_inv in Ea. destruct Ea as (sk & Es & Ea). apply bind_inv in Ea. destruct Ea as (pk & Ep & Ea).
  apply Ok_inj in Ea. subst a. cbn [bind] in Er. apply Ok_inj in Er. subst ri.
  pose proof (mapM_unit _ _ _ Em _ (or_introl eq_refl)) as Hu1. cbv beta iota zeta in Hu1. cbn [zlookup] in Hu1. change (Z.of_nat 0) with 0 in Hu1. cbn [Z.eqb] in Hu1.
  exists b, sk, pk. apply nth_or_panic_inv in Es. apply nth_or_panic_inv in Ep. split; [reflexivity|]. split; [exact Es|]. split; [exact Ep|].
  destruct (private_verify b sk pk (su_ad su) 0 0); try discriminate. reflexivity.
Qed.
Lemma random_one su nc r : su_receivers su = 1 -> su_threshold su = 1 -> 1 <= nc -> round_random cbor_cm su 1 nc <> Ok r.
Proof.
  intros Hn Ht Hc H. unfold round_random in H. change (go_make 1) with (Ok 1%nat) in H. rewrite bind_Ok in H. cbn [repeat] in H.
  unfold round_run, next_dealing_seed in H. apply bind_inv in H. destruct H as ([s su1] & E1 & H). apply bind_inv in E1. destruct E1 as (s1 & _ & E1). apply Ok_inj in E1.
  apply bind_inv in H. destruct H as (ds & Ed & H). apply bind_inv in H. destruct H as (t & Et & H). apply bind_inv in H. destruct H as (r' & Er & _).
  assert (N1 : su_receivers su1 = 1 /\ su_threshold su1 = 1) by (injection E1 as _ <-; auto). clear E1. destruct N1 as [N1 T1].
  pose proof (create_dealings_made HX su1 [SRandom] _ _ _ _ _ ltac:(intros [E|[]]; discriminate) Ed) as Md.
  destruct (create_one _ _ _ _ _ _ N1 T1 Hc Ed) as (d & sk & pk & -> & Es & Ep & F). destruct Md as [_ Md].
  destruct (Md 0 d (or_introl eq_refl)) as (_ & s0 & po & mo & E0 & ((l & U & (Ll & _)) & _) & _). rewrite T1 in Ll.
  assert (Pr : sh_pair s0 = true) by (apply nth_error_In in E0; destruct E0 as [<-|[]]; reflexivity). rewrite Pr in U. cbn [kcm] in U.
  assert (Fm : m_decrypt_and_check (d_ct d) (d_cm d) (su_ad su1) 0 0 sk pk = Err).
  { unfold private_verify in F. rewrite U in F |- *. destruct l as [|P l]; [discriminate Ll|]. cbn in F.
    destruct (m_decrypt_and_check _ _ _ _ _ _ _); try discriminate F. reflexivity. }
  unfold round_new, open_dealings in Er. apply bind_inv in Er. destruct Er as (os & Eo & _). rewrite N1 in Eo. change (go_make 1) with (Ok 1%nat) in Eo. rewrite bind_Ok in Eo. cbn [seq] in Eo.
  apply bind_inv in Eo. destruct Eo as ([] & _ & Eo). apply bind_inv in Eo. destruct Eo as (sd & _ & Eo). apply bind_inv in Eo. destruct Eo as (sd2 & _ & Eo).
  apply bind_inv in Eo. destruct Eo as (rn & _ & Eo). cbn [open_loop] in Eo. unfold nth_or_panic in Eo. rewrite Es, Ep, !bind_Ok in Eo.
  unfold from_dealings in Eo. cbn [mapM fst snd] in Eo. change (Z.of_nat 0) with 0 in Eo. rewrite Fm in Eo. cbn [bind] in Eo.
  apply bind_inv in Eo. destruct Eo as (s2 & _ & Eo). apply bind_inv in Eo. destruct Eo as (cs & Ec & Eo). apply bind_inv in Eo. destruct Eo as ([pr rn2] & Ea & Eo).
  apply bind_inv in Eo. destruct Eo as (o & Eop & _).
  unfold generate_complaints in Ec. cbn [complaints_loop] in Ec. rewrite Fm in Ec. apply bind_inv in Ec. destruct Ec as (cs0 & Ec & Ec').
  apply bind_inv in Ec. destruct Ec as (s3 & _ & Ec). apply bind_inv in Ec. destruct Ec as (c & _ & Ec). apply bind_inv in Ec. destruct Ec as (rs & Ers & Ec).
  apply Ok_inj in Ers. subst rs. apply Ok_inj in Ec. subst cs0. apply Ok_inj in Ec'. subst cs.
  cbn [answer_loop zlookup Z.eqb] in Ea. apply bind_inv in Ea. destruct Ea as ([] & _ & Ea). apply bind_inv in Ea. destruct Ea as (ri & Er & Ea).
  apply bind_inv in Ea. destruct Ea as (os1 & Eos & Ea). apply bind_inv in Ea. destruct Ea as ([os2 rn3] & Edd & Ea). cbn [bind] in Ea. apply Ok_inj in Ea. injection Ea as <- _.
  unfold receiver_info in Er. rewrite N1 in Er. change (go_make 1) with (Ok 1%nat) in Er. rewrite bind_Ok in Er. cbn [seq mapM] in Er. unfold nth_or_panic in Er. rewrite Es, Ep in Er. cbn [bind] in Er.
  apply Ok_inj in Er. subst ri. cbn [open_for] in Eos. change (Z.of_nat 0) with 0 in Eos. cbn [Z.eqb] in Eos. apply Ok_inj in Eos. subst os1.
  assert (os2 = []) as ->.
  { destruct os2 as [|e os2]; [reflexivity|]. destruct (delete_loop_in _ _ _ _ _ _ Edd e (or_introl eq_refl)). }
  unfold from_dealings_and_openings in Eop. cbn [mapM fst snd zlookup Z.eqb] in Eop.
  change (0 =? 0) with true in Eop. cbv iota in Eop.
  rewrite (reconstruct_few d [] 0 1) in Eop; [discriminate Eop| |cbn [length]; lia].
  rewrite U. destruct l as [|P [|P' l]]; try discriminate Ll. reflexivity.
Qed.
End One.
Theorem C71_one_node_cannot_repair :
  forall (X : Oracles) (HX : oracles_ok X) (GO : Grp) (GL : GrpLaws GO) (cbor_cm : commitment -> bytes) (nc : Z) (seed : bytes) s,
  1 <= nc -> new_sig_setup cbor_cm 1 1 nc seed <> Ok s.
Proof.
  intros X HX GO GL cb nc seed s Hc H. unfold new_sig_setup in H. apply bind_inv in H. destruct H as (su & E & H). apply bind_inv in H. destruct H as (r & Er & _).
  apply new_setup_inv in E; [|lia]. destruct E as (_ & T & N & _). apply (random_one HX cb su nc r N T Hc Er).
Qed.
Print Assumptions C71_one_node_cannot_repair.

(** test values: two nodes repair a corrupted dealing, one node does not *)
#[local] Existing Instance exX.
#[local] Existing Instance Toy.toyG.
Definition ex_random n nc := do su <- new_setup n 1 (map Z.of_nat (seq 1 32)); do r <- round_random (fun _ => []) su n nc; Ok (su, fst r).
Definition ex_unusable su (e : Z * dealing) : bool :=
  match su_sk su, su_pk su with sk :: _, pk :: _ => negb (is_ok (private_verify (snd e) sk pk (su_ad su) (fst e) 0)) | _, _ => false end.
Example C71_ex : match ex_random 2 1 with
  | Ok (su, r) => existsb (ex_unusable su) (rd_dealings r) && (Z.of_nat (length (rd_openings r)) =? 2) | _ => false end = true.
Proof. vm_compute. reflexivity. Qed.
Example C71_ex_setup : exists su, new_setup 2 1 (map Z.of_nat (seq 1 32)) = Ok su /\ su_pk su = map mul_by_g (su_sk su) /\
  Z.of_nat (length (su_sk su)) = su_receivers su /\ su_receivers su = 2 /\ su_threshold su = 1.
Proof.
  assert (Ok' : match new_setup 2 1 (map Z.of_nat (seq 1 32)) with Ok su => Z.of_nat (length (su_sk su)) =? 2 | _ => false end = true) by (vm_compute; reflexivity).
  destruct (new_setup 2 1 (map Z.of_nat (seq 1 32))) as [su| | |] eqn:E; try discriminate Ok'. exists su. split; [reflexivity|].
  apply new_setup_inv in E; [|lia]. destruct E as ((K1 & K2) & T & N & _). apply Z.eqb_eq in Ok'. rewrite N. auto.
Qed.
Example C71_ex_one : match ex_random 1 1 with Panic => true | _ => false end = true.
Proof. vm_compute. reflexivity. Qed.
