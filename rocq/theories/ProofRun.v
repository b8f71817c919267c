(** Honest protocol runs succeed. *)
From Coq Require Import ZArith Lia Bool String List Ring Field Sorted.
From Verif Require Import Base BaseFacts Zmod Fields ModelScalar ProofScalar ModelXmd ModelRo ProofRand SpecPoly ModelPoly ProofPoly
  ProofLagrange ProofSecrecy ModelGroup GroupFacts SpecGroup ModelCommit ProofCommit ModelZk ProofZk ModelMega ProofMega
  ModelDealing SpecDealing ProofDealing ProofTranscript ProofHonest ModelComplaint ModelKey ModelSign SpecSign ProofSign ModelProtocol ProofProtocol.
Import ListNotations.
Open Scope Z_scope.

(** a result that is no error, and a panic only if [C] *)
Definition ok3 {A} (P : A -> Prop) (C : Prop) (r : res A) : Prop :=
  match r with Ok a => P a | Err => False | Panic => C | Diverge => True end.
Lemma ok3_bind {A B} (P : A -> Prop) (Q : B -> Prop) C r (k : A -> res B) : ok3 P C r -> (forall a, r = Ok a -> P a -> ok3 Q C (k a)) -> ok3 Q C (bind r k).
Proof. destruct r as [a| | |]; cbn; auto. Qed.
Lemma ok3_mono {A} (P Q : A -> Prop) C r : ok3 P C r -> (forall a, r = Ok a -> P a -> Q a) -> ok3 Q C r.
Proof. destruct r as [a| | |]; cbn; auto. Qed.

Section Run.
Context {X : Oracles} (HX : oracles_ok X) {GO : Grp} {GL : GrpLaws GO}.
Context (cbor_cm : commitment -> bytes).

(** a dealing that one dealer made and that also passes as the next dealer's *)
Definition misattributed (th n : Z) (pks : list G) (ad : bytes) : Prop :=
  exists s seed k d op, 0 <= k < n /\ new_dealing s seed th pks k ad = Ok d /\ publicly_verify d op th (k + 1) n ad = Ok tt.
Definition mis (su : setup) : Prop := misattributed (su_threshold su) (su_receivers su) (su_pk su) (su_ad su).

Lemma seed_from_rng_total r : exists s r', seed_from_rng r = Ok (s, r') /\ blen s = 32.
Proof.
  unfold seed_from_rng. destruct (fill_uint8 r (repeat 0 32)) as [o r'].
  destruct (new_seed_total HX o from_rng_dst) as (s & E & L). unfold seed_derive in E. rewrite E, bind_Ok. eauto.
Qed.

(** once a dealing has been accepted, no check of it panics *)
Lemma public_total d op th k n ad k' n' ad' : publicly_verify d op th k n ad = Ok tt ->
  publicly_verify d op th k' n' ad' = Ok tt \/ publicly_verify d op th k' n' ad' = Err.
Proof.
  intros H. unfold publicly_verify in *. apply bind_inv in H. destruct H as (m & -> & H). rewrite bind_Ok. destruct (negb (m =? th)); [discriminate|].
  apply bind_inv in H. destruct H as ([] & -> & H). rewrite bind_Ok. apply bind_inv in H. destruct H as ([] & E & H).
  assert (Ev : m_check_validity (d_ct d) n' ad' k' = Ok tt \/ m_check_validity (d_ct d) n' ad' k' = Err).
  { unfold m_check_validity in *. apply bind_inv in E. destruct E as (rc & -> & E). rewrite bind_Ok. destruct (negb (rc =? n)); [discriminate|].
    destruct (negb (rc =? n')); [auto|]. apply (m_verify_pop_cases HX). intros Q. rewrite Q in E. discriminate. }
  destruct Ev as [-> | ->]; [|right; reflexivity]. rewrite bind_Ok. clear E.
  assert (Ce : forall p e, c_eval p k = Ok e -> exists e', c_eval p k' = Ok e').
  { intros p e He. unfold c_eval in *. apply bind_inv in He. destruct He as (l & -> & He). rewrite bind_Ok. destruct l; [discriminate|]. cbn. eauto. }
  destruct op as [|p|p|l r|]; destruct (d_proof d) as [|pf|pf]; try discriminate; try (right; reflexivity).
  - left. exact H.
  - apply bind_inv in H. destruct H as ([] & -> & H). rewrite bind_Ok. apply bind_inv in H. destruct H as ([] & -> & H). rewrite bind_Ok.
    apply bind_inv in H. destruct H as ([] & -> & H). rewrite bind_Ok. destruct p as [l|l| | |]; try discriminate; auto.
    apply bind_inv in H. destruct H as (e & E & H). apply bind_inv in H. destruct H as (K & EK & H).
    destruct l as [|P l]; [discriminate|]. cbn [eval_points]. rewrite bind_Ok, EK, bind_Ok. clear H. generalize (fold_left (fun acc pt : G => gadd (mul_by_node_index acc k') pt) (rev (P :: l)) gzero). intros e'. unfold guard. destruct (geqb e' K); auto.
  - apply bind_inv in H. destruct H as ([] & -> & H). rewrite bind_Ok. apply bind_inv in H. destruct H as ([] & -> & H). rewrite bind_Ok.
    apply bind_inv in H. destruct H as (e & E & H). destruct (Ce _ _ E) as [e' ->]. rewrite bind_Ok.
    apply bind_inv in H. destruct H as (K & -> & H). rewrite bind_Ok. apply (eqo_verify_cases HX).
  - apply bind_inv in H. destruct H as ([] & -> & H). rewrite bind_Ok. apply bind_inv in H. destruct H as ([] & -> & H). rewrite bind_Ok.
    apply bind_inv in H. destruct H as ([] & -> & H). rewrite bind_Ok. apply bind_inv in H. destruct H as ([] & -> & H). rewrite bind_Ok.
    apply bind_inv in H. destruct H as (e & E & H). destruct (Ce _ _ E) as [e' ->]. rewrite bind_Ok.
    apply bind_inv in H. destruct H as (e2 & E2 & H). destruct (Ce _ _ E2) as [e2' ->]. rewrite bind_Ok.
    apply bind_inv in H. destruct H as (K & -> & H). rewrite bind_Ok. apply (prod_verify_cases HX).
Qed.
(** with another number of receivers it is refused *)
Lemma public_receivers d op th k n ad k' n' ad' : publicly_verify d op th k n ad = Ok tt -> n' <> n -> publicly_verify d op th k' n' ad' = Err.
Proof.
  intros H Hn. unfold publicly_verify in *. apply bind_inv in H. destruct H as (m & -> & H). rewrite bind_Ok. destruct (negb (m =? th)); [discriminate|].
  apply bind_inv in H. destruct H as ([] & -> & H). rewrite bind_Ok. apply bind_inv in H. destruct H as ([] & E & _).
  unfold m_check_validity in *. apply bind_inv in E. destruct E as (rc & -> & E). rewrite bind_Ok.
  destruct (Z.eqb_spec rc n); [|discriminate]. subst rc. destruct (Z.eqb_spec n n'); [congruence|]. reflexivity.
Qed.

(** ** the dealing loop *)
Definition su_ready (su : setup) : Prop :=
  su_keys su /\ 0 < su_threshold su <= su_receivers su /\ Z.of_nat (length (su_sk su)) = su_receivers su.
Lemma ready_pk su : su_ready su -> Z.of_nat (length (su_pk su)) = su_receivers su.
Proof. intros ([E _] & _ & L). rewrite E, map_length. exact L. Qed.
Lemma receiver_info_ok su : su_ready su -> exists ri, receiver_info su = Ok ri /\ length ri = Z.to_nat (su_receivers su) /\
  forall sk pk j, In (sk, pk, j) ri -> exists i, j = Z.of_nat i /\ pk = mul_by_g sk /\ nth_error (su_sk su) i = Some sk /\ nth_error (su_pk su) i = Some pk.
Proof.
  intros R. pose proof R as (Hk & Ht & L). unfold receiver_info, go_make. destruct (Z.ltb_spec (su_receivers su) 0); [lia|]. rewrite bind_Ok.
  rewrite (mapM_total _ (fun i => (nth i (su_sk su) fzero, mul_by_g (nth i (su_sk su) fzero), Z.of_nat i))).
  - eexists. split; [reflexivity|]. split; [rewrite map_length, seq_length; reflexivity|]. intros sk pk j Hin. apply in_map_iff in Hin.
    destruct Hin as (i & E & Hin). injection E as <- <- <-. apply in_seq in Hin. exists i.
    assert (Es : nth_error (su_sk su) i = Some (nth i (su_sk su) fzero)) by (apply nth_error_nth'; lia).
    repeat split; auto. apply (keys_pk _ _ _ Hk Es).
  - intros i Hin. apply in_seq in Hin. assert (Es : nth_error (su_sk su) i = Some (nth i (su_sk su) fzero)) by (apply nth_error_nth'; lia).
    unfold nth_or_panic. rewrite Es, (keys_pk _ _ _ Hk Es). reflexivity.
Qed.
Lemma mapM_units {A} (f : A -> res unit) l : (forall a, In a l -> f a = Ok tt) -> exists r, mapM f l = Ok r.
Proof. intros H. apply mapM_cases. intros a Hin. exists tt. apply H, Hin. Qed.
Definition dealt_all su (ds : list (Z * dealing)) (shs : list shares) : Prop :=
  Forall2 (fun kd s => dealt s (su_threshold su) (su_pk su) (fst kd) (su_ad su) (snd kd)) ds shs.
Lemma deal_loop_ok su op : su_ready su -> forall shs i rn, 0 <= i -> i + Z.of_nat (length shs) <= su_receivers su ->
  (forall j s, nth_error shs j = Some s -> share_consistent s op (i + Z.of_nat j)) ->
  ok3 (fun r => dealt_all su (fst r) shs /\ map fst (fst r) = map (fun j => i + Z.of_nat j) (seq 0 (length shs)) ) (mis su) (deal_loop su op i shs rn).
Proof.
  intros R. pose proof R as (Hk & Ht & L). pose proof (ready_pk su R) as Lp. induction shs as [|s shs IH]; intros i rn Hi Hn Hc; cbn [deal_loop].
  { cbn. split; [constructor|reflexivity]. }
  cbn [length] in Hn. destruct (seed_from_rng_total rn) as (sd & rn' & -> & _). rewrite bind_Ok.
  pose proof (Hc O s eq_refl) as C. change (Z.of_nat 0) with 0 in C. rewrite Z.add_0_r in C. assert (Hs : s <> SOther) by (intros ->; exact C).
  destruct (new_dealing_cases HX s sd (su_threshold su) (su_pk su) i (su_ad su) Hs ltac:(lia)) as [(d & Ed & D)|E]; [|rewrite E; exact I].
  rewrite Ed, bind_Ok. pose proof (dealt_publicly_verifies s op _ _ _ _ d (proj1 Ht) D C) as V. rewrite Lp in V.
  apply (ok3_bind (fun _ => True)).
  { unfold test_public. rewrite V. cbn [must_pass bind].
    destruct (public_total _ _ _ _ _ _ (i + 1) (su_receivers su) (su_ad su) V) as [E|E]; rewrite E.
    - cbn. exists s, sd, i, d, op. split; [lia|]. split; [exact Ed|exact E].
    - cbn [must_fail bind]. rewrite !(public_receivers _ _ _ _ _ _ _ (su_receivers su + 1) _ V) by lia. exact I. }
  intros [] _ _. destruct (receiver_info_ok su R) as (ri & -> & Lr & Hr). rewrite bind_Ok.
  destruct (mapM_units (fun r => let '(sk, pk, j) := r in private_verify d sk pk (su_ad su) i j) ri) as [us ->].
  { intros [[sk pk] j] Hin. destruct (Hr _ _ _ Hin) as (m & -> & -> & E1 & E2). apply (dealt_privately_verifies s _ _ _ _ d m sk (proj1 Ht) D E2). }
  rewrite bind_Ok. eapply ok3_bind; [apply (IH (i + 1) rn'); [lia|lia|]|].
  { intros j s' Hj. specialize (Hc (S j) s' Hj). replace (i + 1 + Z.of_nat j) with (i + Z.of_nat (S j)) by lia. exact Hc. }
  intros [r rn2] _ [H1 H2]. cbn [fst] in H1, H2. destruct ri as [|x ri]; [cbn [length] in Lr; lia|]. cbn. split.
  - constructor; [exact D|exact H1].
  - rewrite H2, Z.add_0_r. f_equal. rewrite <- seq_shift, map_map. apply map_ext. intros j. lia.
Qed.
Lemma create_ok su op shs seed : su_ready su -> blen seed = 32 -> Z.of_nat (length shs) = su_receivers su ->
  (forall j s, nth_error shs j = Some s -> share_consistent s op (Z.of_nat j)) ->
  ok3 (fun ds => dealt_all su ds shs /\ map fst ds = map Z.of_nat (seq 0 (length shs))) (mis su)
    (create_dealings su shs (su_receivers su) 0 op seed).
Proof.
  intros R Ls Ln Hc. unfold create_dealings. rewrite seed_rng_ok by exact Ls. rewrite bind_Ok.
  eapply ok3_bind; [apply (deal_loop_ok su op R shs 0 _); [lia|lia|exact Hc]|]. intros [ds rn] _ [H1 H2]. cbn [fst] in H1, H2.
  assert (Ld : length ds = length shs) by (rewrite <- (map_length fst ds), H2, map_length, seq_length; reflexivity).
  unfold delete_down. cbn [delete_loop]. destruct (Z.leb_spec (Z.of_nat (length ds)) (su_receivers su)); [|lia]. rewrite bind_Ok.
  assert (damage_loop rand_fuel ds [] 0 rn = Ok ([], rn)) as -> by (destruct rand_fuel; reflexivity).
  rewrite bind_Ok. cbn. auto.
Qed.

(** ** one round *)
Lemma dealt_cm s th rc k ad d : 0 < th -> dealt s th rc k ad d -> exists l, d_cm d = kcm (sh_pair s) l /\ Z.of_nat (length l) = th.
Proof.
  intros Ht D. destruct s as [|s|s m|l r rm|]; cbn [dealt sh_pair kcm] in *; [| | | |contradiction].
  - destruct D as (po & mo & _ & _ & (e & p & pf & c & l & _ & E & L & _) & _). exists l. split; [exact E|lia].
  - destruct D as (po & _ & _ & (e & p & pf & c & l & _ & E & L & _) & _). exists l. split; [exact E|lia].
  - destruct D as (po & z & _ & _ & (e & p & pf & c & l & _ & E & L & _) & _). exists l. split; [exact E|lia].
  - destruct D as (po & mo & z & _ & _ & _ & (e & p & pf & c & l' & _ & E & L & _) & _). exists l'. split; [exact E|lia].
Qed.
Lemma Forall2_In_l {A B} (P : A -> B -> Prop) l l' a : Forall2 P l l' -> In a l -> exists b, In b l' /\ P a b.
Proof. intros H. induction H; intros Hin; [contradiction|]. destruct Hin as [<-|Hin]; [eauto with datatypes|]. destruct (IHForall2 Hin) as (b & ? & ?). eauto with datatypes. Qed.
Definition op_prev (n : Z) (op : operation) : Prop :=
  match op with
  | TRandom => True
  | TReshareMasked p => unwrap p = CPedersen (pts_of p) /\ Z.of_nat (length (pts_of p)) <= n
  | TTimes l r => unwrap l = CSimple (pts_of l) /\ unwrap r = CPedersen (pts_of r) /\ Z.of_nat (length (pts_of l)) + Z.of_nat (length (pts_of r)) <= n + 1
  | _ => False
  end.
Lemma open_loop_ok su ds op t seed : su_ready su -> keys_ok ds -> op <> TOther -> new_transcript (su_threshold su) ds op = Ok t ->
  (forall kd, In kd ds -> kind_ok op (d_cm (snd kd)) /\
     forall i sk, nth_error (su_pk su) i = Some (mul_by_g sk) -> private_verify (snd kd) sk (mul_by_g sk) (su_ad su) (fst kd) (Z.of_nat i) = Ok tt) ->
  forall is rn, (forall i, In i is -> (i < length (su_sk su))%nat) -> exists os, open_loop su ds (tr_commitment t) seed is rn = Ok os.
Proof.
  intros (Hk & Ht & _) K No Et Hd. induction is as [|i is IH]; intros rn Hi; cbn [open_loop]; [eauto|].
  pose proof (Hi i (or_introl eq_refl)) as Li.
  assert (Es : nth_error (su_sk su) i = Some (nth i (su_sk su) fzero)) by (apply nth_error_nth'; lia).
  unfold nth_or_panic. rewrite Es, (keys_pk _ _ _ Hk Es), !bind_Ok.
  destruct (from_dealings_complete (su_threshold su) ds op t (su_ad su) (Z.of_nat i) (nth i (su_sk su) fzero) (mul_by_g (nth i (su_sk su) fzero)) K (proj1 Ht) No Et) as [o ->].
  - intros kd Hin. destruct (Hd kd Hin) as [H1 H2]. split; [exact H1|]. apply H2. apply (keys_pk _ _ _ Hk Es).
  - destruct (IH rn) as [os ->]; [intros j Hj; apply Hi; right; exact Hj|]. rewrite bind_Ok. eauto.
Qed.
Lemma round_run_ok su op pair shs : su_ready su -> Z.of_nat (length shs) = su_receivers su -> (forall s, In s shs -> sh_pair s = pair) -> op_single op = negb pair ->
  (forall j s, nth_error shs j = Some s -> share_consistent s op (Z.of_nat j)) -> op_prev (su_receivers su) op ->
  ok3 (fun _ => True) (mis su) (round_run cbor_cm su shs (su_receivers su) 0 op).
Proof.
  intros R Ln Hp Ho Hc Op. unfold round_run, next_dealing_seed.
  destruct (new_seed_total HX (su_seed su) (round_dst (su_round su))) as (s1 & -> & L1). rewrite !bind_Ok.
  set (su1 := mksetup _ _ _ _ _ _ _). assert (R1 : su_ready su1) by exact R. change (mis su) with (mis su1).
  change (su_receivers su) with (su_receivers su1) in Ln, Op. change (su_receivers su) with (su_receivers su1).
  eapply ok3_bind; [apply (create_ok su1 op shs s1 R1 L1 Ln Hc)|]. intros ds _ [Da Kf]. clearbody su1. clear R.
  pose proof R1 as (Hk & Ht & Lsk).
  assert (Ld : length ds = length shs) by (rewrite <- (map_length fst ds), Kf, map_length, seq_length; reflexivity).
  assert (K : keys_ok ds).
  { split; rewrite Kf.
    - apply Forall_forall. intros k Hin. apply in_map_iff in Hin. destruct Hin as (j & <- & Hin). apply in_seq in Hin. destruct Hk as [_ Hk]. unfold int64_ok. lia.
    - apply FinFun.Injective_map_NoDup; [intros a b; apply Nat2Z.inj|apply seq_NoDup]. }
  assert (Hd : forall kd, In kd ds -> (exists l, d_cm (snd kd) = kcm pair l /\ Z.of_nat (length l) = su_threshold su1) /\
     forall i sk, nth_error (su_pk su1) i = Some (mul_by_g sk) -> private_verify (snd kd) sk (mul_by_g sk) (su_ad su1) (fst kd) (Z.of_nat i) = Ok tt).
  { intros kd Hin. destruct (Forall2_In_l _ _ _ _ Da Hin) as (s & Hs & D). split.
    - destruct (dealt_cm _ _ _ _ _ _ (proj1 Ht) D) as (l & E & L). rewrite (Hp s Hs) in E. eauto.
    - intros i sk Hi. apply (dealt_privately_verifies s _ _ _ _ _ i sk (proj1 Ht) D Hi). }
  destruct (new_transcript_ok (su_threshold su1) ds op K) as [t Et].
  - intros ->. cbn [length] in Ld. lia.
  - lia.
  - intros kd Hin. destruct (Hd kd Hin) as [(l & E & L) _]. unfold dl_pts. rewrite E, pts_kcm. split; [apply is_cm_kcm|exact L].
  - destruct op as [|p|p|l r|]; cbn [op_prev op_ready op_single negb] in *; try contradiction.
    + destruct pair; [|discriminate]. intros kd Hin. destruct (Hd kd Hin) as [(l & E & L) _]. unfold dl_pts. rewrite E. reflexivity.
    + destruct Op as [U L]. split; [exact U|lia].
    + destruct Op as (U & V & L). split; [exact U|]. split; [exact V|lia].
  - assert (No : op <> TOther) by (intros ->; exact Op). rewrite Et, bind_Ok. unfold round_new, open_dealings, go_make.
    destruct (Z.ltb_spec (su_receivers su1) 0); [lia|]. rewrite bind_Ok.
    destruct (shape_weights _ _ _ _ (new_transcript_shape _ _ _ _ K (Z.lt_le_incl _ _ (proj1 Ht)) No Et)) as (pts & cs & Lp & W). rewrite Ho, negb_involutive in W.
    assert (U : unwrap (tr_commitment t) = kcm pair pts).
    { destruct W as (_ & [(-> & -> & _)|(-> & _)] & _); [reflexivity|]. cbn [unwrap]. apply unwrap_kcm. }
    assert (Ec : c_curve (tr_commitment t) = Ok tt).
    { unfold c_curve, c_points. rewrite U. destruct pts as [|P pts]; [cbn [length] in Lp; lia|]. destruct pair; reflexivity. }
    rewrite Ec, bind_Ok. destruct (new_seed_total HX (cbor_cm (tr_commitment t)) from_bytes_dst) as (s2 & E2 & _).
    unfold seed_from_bytes. unfold seed_derive in E2. rewrite E2, bind_Ok. destruct (new_seed_total HX s2 opening_rng_dst) as (s3 & -> & L3). rewrite bind_Ok.
    rewrite seed_rng_ok by exact L3. rewrite bind_Ok.
    destruct (open_loop_ok su1 ds op t s2 R1 K No Et) with (is := seq 0 (Z.to_nat (su_receivers su1))) (rn := mkrng s3 0) as [os ->].
    + intros kd Hin. destruct (Hd kd Hin) as [(l & E & L) P]. split; [|exact P]. unfold kind_ok. rewrite Ho, E. destruct pair; reflexivity.
    + intros i Hin. apply in_seq in Hin. lia.
    + rewrite bind_Ok. unfold c_clone. rewrite U. destruct pair; exact I.
Qed.
Lemma random_ok su : su_ready su -> ok3 (fun _ => True) (mis su) (round_random cbor_cm su (su_receivers su) 0).
Proof.
  intros R. pose proof R as (Hk & Ht & _). unfold round_random, go_make. destruct (Z.ltb_spec (su_receivers su) 0); [lia|]. rewrite bind_Ok.
  apply (round_run_ok su TRandom true); [exact R|rewrite repeat_length; lia| |reflexivity| |exact I].
  - intros s Hs. apply repeat_spec in Hs. subst s. reflexivity.
  - intros j s Hs. apply nth_error_In, repeat_spec in Hs. subst s. exact I.
Qed.
Lemma rinv_check n th pair po mo r l i : rinv n th pair po mo r -> rd_commitment r = kcm pair l -> c_check_opening (kcm pair l) i (opening_at po mo pair i) = Ok true.
Proof.
  intros (Hth & l' & Ec & _ & S & _) E. assert (l' = l) as -> by (rewrite E in Ec; destruct pair; injection Ec as <-; reflexivity).
  apply (check_opening_at _ pair l th); [apply unwrap_kcm| |exact S]. destruct S as (L & _). destruct l; [cbn [length] in L; lia|discriminate].
Qed.
Lemma reshare_ok su po mo masked : su_ready su -> rinv (Z.to_nat (su_receivers su)) (su_threshold su) true po mo masked ->
  ok3 (fun _ => True) (mis su) (round_reshare_masked cbor_cm su masked (su_receivers su) 0).
Proof.
  intros R I. pose proof R as (Hk & Ht & _). pose proof I as (Hth & l & Ec & _ & (Ll & _) & Eo). unfold round_reshare_masked. rewrite Eo.
  rewrite (mapM_total _ (fun o => SReshareMasked (oval o) (omask o))) by (intros o Hin; apply in_map_iff in Hin; destruct Hin as (i & <- & _); reflexivity).
  rewrite bind_Ok, Ec. cbn [kcm c_clone unwrap]. rewrite bind_Ok.
  apply (round_run_ok su (TReshareMasked (CPedersen l)) false); [exact R| | |reflexivity| |].
  - rewrite !map_length, seq_length. lia.
  - intros s Hs. rewrite map_map in Hs. apply in_map_iff in Hs. destruct Hs as (i & <- & _). reflexivity.
  - intros j s Hs. rewrite map_map in Hs. apply nth_seq_map in Hs. subst s. cbn [share_consistent].
    pose proof (rinv_check _ _ _ _ _ _ l (Z.of_nat j) I Ec) as Q. rewrite opening_at_eq in *. exact Q.
  - cbn [op_prev]. split; [reflexivity|]. cbn. lia.
Qed.
Lemma multiply_ok su pl ml px mx masked unmasked : su_ready su -> 2 * su_threshold su <= su_receivers su + 1 ->
  rinv (Z.to_nat (su_receivers su)) (su_threshold su) true pl ml masked -> rinv (Z.to_nat (su_receivers su)) (su_threshold su) false px mx unmasked ->
  ok3 (fun _ => True) (mis su) (round_multiply cbor_cm su masked unmasked (su_receivers su) 0).
Proof.
  intros R H2 I I'. pose proof R as (Hk & Ht & _). pose proof I as (Hth & l & Ec & _ & (Ll & _) & Eo). pose proof I' as (_ & l' & Ec' & _ & (Ll' & _) & Eo').
  unfold round_multiply. rewrite Eo, Eo'.
  rewrite (map_ext _ (fun i => OSimple (pev px (from_node_index (Z.of_nat i))))) by (intros i; apply opening_at_eq).
  rewrite (map_ext (fun i => opening_at pl ml true (Z.of_nat i)) (fun i => OPedersen (pev pl (from_node_index (Z.of_nat i))) (pev ml (from_node_index (Z.of_nat i)))))
    by (intros i; apply opening_at_eq).
  rewrite times_shares_ok, bind_Ok, Ec, Ec'. cbn [kcm c_clone unwrap]. rewrite !bind_Ok.
  apply (round_run_ok su (TTimes (CSimple l') (CPedersen l)) true); [exact R| | |reflexivity| |].
  - rewrite map_length, seq_length. lia.
  - intros s Hs. apply in_map_iff in Hs. destruct Hs as (i & <- & _). reflexivity.
  - intros j s Hs. apply nth_seq_map in Hs. subst s. cbn [share_consistent].
    pose proof (rinv_check _ _ _ _ _ _ l (Z.of_nat j) I Ec) as Q. pose proof (rinv_check _ _ _ _ _ _ l' (Z.of_nat j) I' Ec') as Q'.
    rewrite opening_at_eq in *. split; assumption.
  - cbn [op_prev]. split; [reflexivity|]. split; [reflexivity|]. cbn. lia.
Qed.
(** ** the whole setup *)
Lemma su_eq_ready su su' : su_eq su su' -> su_ready su -> su_ready su'.
Proof. intros (E1 & E2 & E3 & E4 & E5). unfold su_ready, su_keys. rewrite E1, E2, E4, E5. auto. Qed.
Lemma su_eq_mis su su' : su_eq su su' -> mis su' -> mis su.
Proof. intros (E1 & E2 & E3 & E4 & E5). unfold mis. rewrite E1, E2, E3, E4. auto. Qed.
Lemma su_eq_trans a b c : su_eq a b -> su_eq b c -> su_eq a c.
Proof. intros (A1 & A2 & A3 & A4 & A5) (B1 & B2 & B3 & B4 & B5). unfold su_eq. rewrite B1, B2, B3, B4, B5. auto. Qed.
Lemma ok3_C {A} (P : A -> Prop) (C C' : Prop) r : ok3 P C r -> (C -> C') -> ok3 P C' r.
Proof. destruct r as [a| | |]; cbn; auto. Qed.
Lemma new_setup_ok n th seed : 0 < th <= n -> n <= 2^63 -> blen seed = 32 -> ok3 (fun su => su_ready su /\ su_receivers su = n /\ su_threshold su = th) False (new_setup n th seed).
Proof.
  intros Ht Hn Ls. unfold new_setup. rewrite seed_rng_ok by exact Ls. rewrite bind_Ok. destruct (fill_uint8 (mkrng seed 0) (repeat 0 32)) as [ad rn].
  unfold go_make. destruct (Z.ltb_spec n 0); [lia|]. rewrite bind_Ok.
  destruct (random_scalars_cases (Z.to_nat n) rn) as [(l & rn' & E & L)|E]; rewrite E; [|exact I]. rewrite bind_Ok. cbn [ok3 fst].
  split; [|auto]. split; [split; [reflexivity|]|]; cbn [su_sk su_threshold su_receivers]; lia.
Qed.
Lemma new_sig_setup_ok n th seed : 0 < th -> 2 * th <= n + 1 -> n <= 2^63 -> blen seed = 32 ->
  ok3 (fun _ => True) (exists su, new_setup n th seed = Ok su /\ mis su) (new_sig_setup cbor_cm n th 0 seed).
Proof.
  intros Ht H2 Hn Ls. unfold new_sig_setup.
  pose proof (new_setup_ok n th seed ltac:(lia) Hn Ls) as Q. destruct (new_setup n th seed) as [su| | |] eqn:E0; cbn [ok3] in Q; try contradiction; [|exact I].
  rewrite bind_Ok. destruct Q as (R0 & N0 & T0).
  apply (ok3_C _ (mis su)); [|intros M; exists su; auto]. clear E0.
  assert (Hk : forall su', su_eq su su' -> su_ready su' /\ su_receivers su' = n /\ su_threshold su' = th /\ (mis su' -> mis su)).
  { intros su' Q. split; [apply (su_eq_ready _ _ Q R0)|]. pose proof Q as (T & N & _). rewrite T, N. split; [exact N0|]. split; [exact T0|]. apply su_eq_mis, Q. }
  assert (Hr : forall su' r su'', su_eq su su' -> round_random cbor_cm su' n 0 = Ok (r, su'') ->
    su_eq su su'' /\ exists po mo, rinv (Z.to_nat n) th true po mo r).
  { intros su' r su'' Q E. destruct (Hk _ Q) as ((K & _) & N & T & _). destruct (random_inv HX cbor_cm su' n 0 r su'' K Hn E) as (Q' & po & mo & Iv).
    rewrite N, T in Iv. split; [apply (su_eq_trans _ _ _ Q Q')|eauto]. }
  assert (Hm : Z.of_nat (Z.to_nat n) <= 2^63) by lia.
  assert (Hs : forall su' po mo m r su'', su_eq su su' -> rinv (Z.to_nat n) th true po mo m -> round_reshare_masked cbor_cm su' m n 0 = Ok (r, su'') ->
    su_eq su su'' /\ exists po mo, rinv (Z.to_nat n) th false po mo r).
  { intros su' po mo m r su'' Q Iv E. destruct (Hk _ Q) as ((K & _) & N & T & _).
    destruct (reshare_inv HX cbor_cm su' _ _ po mo m n 0 r su'' K Hm Iv E) as (Q' & po' & mo' & Iv' & _).
    rewrite N, T in Iv'. split; [apply (su_eq_trans _ _ _ Q Q')|eauto]. }
  assert (Hp : forall su' pl ml px mx m u r su'', su_eq su su' -> rinv (Z.to_nat n) th true pl ml m -> rinv (Z.to_nat n) th false px mx u ->
    round_multiply cbor_cm su' m u n 0 = Ok (r, su'') -> su_eq su su'').
  { intros su' pl ml px mx m u r su'' Q Iv Iv' E. destruct (Hk _ Q) as ((K & _) & N & T & _).
    destruct (multiply_inv HX cbor_cm su' _ _ pl ml px mx m u n 0 r su'' K Hm Iv Iv' E) as (Q' & _). apply (su_eq_trans _ _ _ Q Q'). }
  assert (Or : forall su', su_eq su su' -> ok3 (fun _ => True) (mis su) (round_random cbor_cm su' n 0)).
  { intros su' Q. destruct (Hk _ Q) as (R & N & T & M). rewrite <- N. apply (ok3_C _ (mis su')); [apply random_ok, R|exact M]. }
  assert (Os : forall su' po mo m, su_eq su su' -> rinv (Z.to_nat n) th true po mo m -> ok3 (fun _ => True) (mis su) (round_reshare_masked cbor_cm su' m n 0)).
  { intros su' po mo m Q Iv. destruct (Hk _ Q) as (R & N & T & M). rewrite <- N, <- T in *. apply (ok3_C _ (mis su')); [apply (reshare_ok su' po mo m R Iv)|exact M]. }
  assert (Om : forall su' pl ml px mx m u, su_eq su su' -> rinv (Z.to_nat n) th true pl ml m -> rinv (Z.to_nat n) th false px mx u ->
    ok3 (fun _ => True) (mis su) (round_multiply cbor_cm su' m u n 0)).
  { intros su' pl ml px mx m u Q Iv Iv'. destruct (Hk _ Q) as (R & N & T & M). rewrite <- N, <- T in *.
    apply (ok3_C _ (mis su')); [apply (multiply_ok su' pl ml px mx m u R H2 Iv Iv')|exact M]. }
  assert (Q0 : su_eq su su) by (repeat split).
  apply (ok3_bind _ _ _ _ _ (Or _ Q0)). intros [key0 su1] E1 _. destruct (Hr _ _ _ Q0 E1) as (Q1 & p1 & m1 & I1).
  apply (ok3_bind _ _ _ _ _ (Or _ Q1)). intros [kap0 su2] E2 _. destruct (Hr _ _ _ Q1 E2) as (Q2 & p2 & m2 & I2).
  apply (ok3_bind _ _ _ _ _ (Or _ Q2)). intros [lam su3] E3 _. destruct (Hr _ _ _ Q2 E3) as (Q3 & p3 & m3 & I3).
  apply (ok3_bind _ _ _ _ _ (Os _ _ _ _ Q3 I1)). intros [key su4] E4 _. destruct (Hs _ _ _ _ _ _ Q3 I1 E4) as (Q4 & p4 & m4 & I4).
  apply (ok3_bind _ _ _ _ _ (Os _ _ _ _ Q4 I2)). intros [kap su5] E5 _. destruct (Hs _ _ _ _ _ _ Q4 I2 E5) as (Q5 & p5 & m5 & I5).
  apply (ok3_bind _ _ _ _ _ (Om _ _ _ _ _ _ _ Q5 I3 I4)). intros [xl su6] E6 _. pose proof (Hp _ _ _ _ _ _ _ _ _ Q5 I3 I4 E6) as Q6.
  apply (ok3_bind _ _ _ _ _ (Om _ _ _ _ _ _ _ Q6 I3 I5)). intros [kl su7] E7 _. exact I.
Qed.

(** ** shares *)
Lemma rinv_eval n th pair po mo r i : rinv n th pair po mo r -> exists P, tr_eval (rd_transcript r) i = Ok P.
Proof.
  intros (Hth & l & _ & U & (Ll & _) & _). unfold tr_eval, c_eval, c_points. rewrite U. destruct l as [|P l]; [cbn [length] in Ll; lia|].
  destruct pair; cbn [kcm bind eval_points]; eauto.
Qed.
Lemma share_loop_ok s pa h beacon n th px mx pk mk pl ml pxl mxl pkl mkl : blen h <= 64 -> rinv n th false px mx (ps_key s) -> rinv n th false pk mk (ps_kappa s) ->
  tr_commitment (rd_transcript (ps_kappa s)) = CInterp (rd_commitment (ps_kappa s)) ->
  rinv n th true pl ml (ps_lambda s) -> rinv n th true pxl mxl (ps_key_lambda s) -> rinv n th true pkl mkl (ps_kappa_lambda s) ->
  forall is, (forall i, In i is -> (i < n)%nat) -> ok3 (fun r => map fst r = map Z.of_nat is) False (share_loop s pa h beacon is).
Proof.
  intros Hh R1 R2 C2 R3 R4 R5. destruct (rinv_constant _ _ _ _ _ R1) as [Ck _]. destruct (rinv_constant _ _ _ _ _ R2) as [_ (lk & Cl)]. rewrite Cl in C2.
  assert (No : forall pair po mo r i, rinv n th pair po mo r -> (i < n)%nat -> nth_or_panic (rd_openings r) i = Ok (opening_at po mo pair (Z.of_nat i))).
  { intros pair po mo r i (_ & l & _ & _ & _ & ->) Hi. unfold nth_or_panic.
    rewrite (map_nth_error (fun i => opening_at po mo pair (Z.of_nat i)) i (seq 0 n) (d := i)); [reflexivity|].
    rewrite (nth_error_nth' (seq 0 n) O) by (rewrite seq_length; exact Hi). rewrite seq_nth by exact Hi. reflexivity. }
  induction is as [|i is IH]; intros Hi; cbn [share_loop]; [reflexivity|]. pose proof (Hi i (or_introl eq_refl)) as Li.
  rewrite (No _ _ _ _ _ R3 Li), (No _ _ _ _ _ R4 Li), (No _ _ _ _ _ R5 Li), !bind_Ok, !opening_at_eq.
  destruct (derive_rho_cases HX h beacon pa _ _ _ lk _ C2 Ck) as [D|(t & ch & rz & _ & _ & D)].
  { unfold new_share. rewrite D. exact I. }
  unfold new_share, share_verify. rewrite D, !bind_Ok.
  assert (Eh : exists e, hash_to_integer h = Ok e).
  { rewrite hash_to_integer_spec. destruct (Z.ltb_spec 64 (blen h)); [lia|eauto]. }
  destruct Eh as [e ->]. rewrite !bind_Ok. cbn [lambda_parts bind].
  destruct (rinv_eval _ _ _ _ _ _ (Z.of_nat i) R3) as [P3 ->]. destruct (rinv_eval _ _ _ _ _ _ (Z.of_nat i) R4) as [P4 ->].
  destruct (rinv_eval _ _ _ _ _ _ (Z.of_nat i) R5) as [P5 ->]. rewrite !bind_Ok. cbn [ss_num ss_den bind].
  eapply ok3_bind; [apply IH; intros j Hj; apply Hi; right; exact Hj|]. intros r _ Er. cbn. f_equal. exact Er.
Qed.
End Run.
