(** Protocol runs with corrupted dealings succeed. *)
From Coq Require Import ZArith Lia Bool String List Ring Field Sorted.
From Verif Require Import Base BaseFacts Zmod Fields ModelScalar ProofScalar ModelXmd ModelRo ProofRand SpecPoly ModelPoly ProofPoly
  ProofLagrange ProofSecrecy ModelGroup GroupFacts SpecGroup ModelCommit ProofCommit ModelZk ProofZk ModelMega ProofMega
  ModelDealing SpecDealing ProofDealing ProofTranscript ProofHonest ModelComplaint ProofComplaint ModelKey ModelSign SpecSign ProofSign
  ModelProtocol ProofProtocol ProofRun.
Import ListNotations.
Open Scope Z_scope.

(** ** lists *)
Section Lists.
Context {A : Type}.
Lemma update_nth_length n (f : A -> A) : forall l, length (update_nth n f l) = length l.
Proof. induction n as [|n IH]; intros [|a l]; cbn [update_nth length]; congruence || (rewrite ?IH; reflexivity). Qed.
Lemma update_nth_nth n (f : A -> A) : forall l i, nth_error (update_nth n f l) i = if Nat.eqb i n then option_map f (nth_error l i) else nth_error l i.
Proof.
  induction n as [|n IH]; intros [|a l] [|i]; cbn [update_nth nth_error Nat.eqb option_map]; try reflexivity.
  - destruct (Nat.eqb i n); reflexivity.
  - apply IH.
Qed.
Definition mem (j : Z) (ts : list Z) : bool := existsb (Z.eqb j) ts.
Lemma mem_in j ts : mem j ts = true <-> In j ts.
Proof.
  unfold mem. rewrite existsb_exists. split; [intros (x & Hx & E); apply Z.eqb_eq in E; subst x; exact Hx|].
  intros H. exists j. split; [exact H|apply Z.eqb_refl].
Qed.
Lemma update_all_ok ts (f : A -> A) : NoDup ts -> forall l, (forall t, In t ts -> 0 <= t < Z.of_nat (length l)) ->
  exists l', update_all ts f l = Ok l' /\ length l' = length l /\
    forall i, nth_error l' i = if mem (Z.of_nat i) ts then option_map f (nth_error l i) else nth_error l i.
Proof.
  intros N. induction N as [|t ts Ni N IH]; intros l Hr; cbn [update_all].
  { exists l. repeat split. }
  pose proof (Hr t (or_introl eq_refl)) as Ht.
  assert (E : exists a, index l t = Ok a).
  { unfold index, nth_or_panic. destruct (Z.ltb_spec t 0); [lia|]. destruct (nth_error l (Z.to_nat t)) eqn:E; [eauto|]. apply nth_error_None in E. lia. }
  destruct E as [a ->]. rewrite bind_Ok.
  destruct (IH (update_nth (Z.to_nat t) f l)) as (l' & -> & L & H).
  { intros t' Hin. rewrite update_nth_length. apply Hr. right. exact Hin. }
  exists l'. split; [reflexivity|]. split; [rewrite L; apply update_nth_length|].
  intros i. rewrite H, update_nth_nth. cbn [mem existsb]. fold (mem (Z.of_nat i) ts).
  destruct (Nat.eqb_spec i (Z.to_nat t)) as [->|Ne].
  - rewrite Z2Nat.id by lia. rewrite Z.eqb_refl. cbn [orb].
    destruct (mem t ts) eqn:M; [|reflexivity]. apply mem_in in M. contradiction.
  - destruct (Z.eqb_spec (Z.of_nat i) t) as [E|_]; [exfalso; apply Ne; lia|]. reflexivity.
Qed.
Lemma zset_length k (a : A) l : (length (zset k a l) <= S (length l))%nat.
Proof. induction l as [|[i b] l IH]; cbn [zset length]; [lia|]. destruct (k <? i); [cbn [length]; lia|]. destruct (k =? i); cbn [length]; lia. Qed.
Lemma delete_loop_total {X : Oracles} fuel : forall (ds : list A) num rn, 0 <= num -> Z.of_nat (length ds) - num < Z.of_nat fuel ->
  exists r rn', delete_loop fuel ds num rn = Ok (r, rn').
Proof.
  induction fuel as [|fuel IH]; intros ds num rn Hn Hf; cbn [delete_loop]; destruct (Z.leb_spec (Z.of_nat (length ds)) num); try (eexists _, _; reflexivity); [lia|].
  destruct ds as [|a ds0] eqn:E; [cbn [length] in *; lia|]. rewrite <- E in *. destruct (rng_uint32 rn) as [u rn1]. apply IH; [exact Hn|].
  assert (L : forall n (l : list A), (n < length l)%nat -> length (remove_nth n l) = (length l - 1)%nat).
  { induction n as [|n IHn]; intros [|b l] Hl; cbn [length remove_nth] in *; try lia. rewrite IHn by lia. lia. }
  pose proof (Z.mod_pos_bound u (Z.of_nat (length ds))). rewrite L by lia. lia.
Qed.
Lemma delete_down_total {X : Oracles} (ds : list A) num rn : 0 <= num -> exists r rn', delete_down ds num rn = Ok (r, rn').
Proof. intros H. apply delete_loop_total; lia. Qed.
End Lists.
Lemma filter_not_mem (ts l : list Z) : NoDup l -> (length l <= length (filter (fun j => negb (mem j ts)) l) + length ts)%nat.
Proof.
  intros N. assert (E : (length (filter (fun j => mem j ts) l) <= length ts)%nat).
  { apply NoDup_incl_length; [apply NoDup_filter, N|]. intros j Hj. apply filter_In in Hj. apply mem_in, Hj. }
  assert (S : (length l = length (filter (fun j => mem j ts) l) + length (filter (fun j => negb (mem j ts)) l))%nat).
  { clear. induction l as [|j l IH]; cbn [filter length]; [reflexivity|]. destruct (mem j ts); cbn [negb length]; lia. }
  lia.
Qed.
Lemma mapM_err {A B} (f : A -> res B) l : (forall a, In a l -> f a = Err \/ exists b, f a = Ok b) -> (exists a, In a l /\ f a = Err) -> mapM f l = Err.
Proof.
  induction l as [|a l IH]; intros H (x & Hin & E); [destruct Hin|]. cbn [mapM].
  destruct (H a (or_introl eq_refl)) as [Ea|(b & Eb)]; [rewrite Ea; reflexivity|]. rewrite Eb, bind_Ok.
  rewrite IH; [reflexivity|intros y Hy; apply H; right; exact Hy|]. destruct Hin as [->|Hin]; [congruence|eauto].
Qed.
Lemma map_fst_filter_in {A} (k : Z) (l : list (Z * A)) : In k (map fst l) -> exists a, In (k, a) l.
Proof. intros H. apply in_map_iff in H. destruct H as ([k' a] & <- & H). eauto. Qed.

Section Corrupt.
Context {X : Oracles} (HX : oracles_ok X) {GO : Grp} {GL : GrpLaws GO}.
Context (cbor_cm : commitment -> bytes).

(** ** random choices *)
Lemma uint32_nonneg rn : 0 <= fst (rng_uint32 rn).
Proof. rewrite uint32_spec. cbn [fst]. apply be_val_range. unfold ks_bytes. apply Forall_forall. intros x Hx. apply in_map_iff in Hx. destruct Hx as (i & <- & _). apply (keystream_byte X HX). Qed.
Lemma uint32_key rn : rng_key (snd (rng_uint32 rn)) = rng_key rn.
Proof. rewrite uint32_spec. reflexivity. Qed.
Lemma seed_from_rng_key rn : exists s r', seed_from_rng rn = Ok (s, r') /\ blen s = 32 /\ rng_key r' = rng_key rn.
Proof.
  destruct (seed_from_rng_total HX rn) as (s & r' & E & L). exists s, r'. split; [exact E|]. split; [exact L|].
  unfold seed_from_rng, fill_uint8 in E. apply bind_inv in E. destruct E as (s' & _ & E). injection E as _ <-. reflexivity.
Qed.
Lemma deal_loop_key su op : forall shs i rn ds rn', deal_loop su op i shs rn = Ok (ds, rn') -> rng_key rn' = rng_key rn.
Proof.
  induction shs as [|s shs IH]; intros i rn ds rn' H; cbn [deal_loop] in H; [injection H as _ <-; reflexivity|].
  destruct (seed_from_rng_key rn) as (sd & rn1 & E & _ & K). rewrite E, bind_Ok in H. apply bind_inv in H. destruct H as (d & _ & H).
  apply bind_inv in H. destruct H as ([] & _ & H). apply bind_inv in H. destruct H as (ri & _ & H). apply bind_inv in H. destruct H as (us & _ & H).
  apply bind_inv in H. destruct H as ([r rn2] & Er & H). injection H as _ <-. rewrite (IH _ _ _ _ Er). exact K.
Qed.
Lemma target_loop_ok n num : 0 < n -> 0 <= num -> forall fuel acc rn, asc acc -> Z.of_nat (length acc) <= num -> (forall e, In e acc -> 0 <= fst e < n) ->
  ok3 (fun r => asc (fst r) /\ Z.of_nat (length (fst r)) = num /\ (forall e, In e (fst r) -> 0 <= fst e < n) /\ rng_key (snd r) = rng_key rn) False
    (target_loop fuel acc num n rn).
Proof.
  intros Hn Hm. induction fuel as [|fuel IH]; intros acc rn Ha Hl Hr; cbn [target_loop]; destruct (Z.leb_spec num (Z.of_nat (length acc))).
  - cbn. repeat split; auto; try lia; apply Hr; assumption.
  - destruct (Z.eqb_spec n 0); [lia|exact I].
  - cbn. repeat split; auto; try lia; apply Hr; assumption.
  - destruct (Z.eqb_spec n 0); [lia|]. pose proof (uint32_nonneg rn) as Hu. pose proof (uint32_key rn) as Hk. destruct (rng_uint32 rn) as [u rn1]. cbn [fst snd] in Hu, Hk.
    eapply ok3_mono; [apply IH|].
    + apply zset_asc, Ha.
    + pose proof (zset_length (Z.rem u n) tt acc). lia.
    + intros e He. apply zset_in in He. destruct He as [->|He]; [|apply Hr, He]. cbn [fst]. apply Z.rem_bound_pos; lia.
    + intros [r rn'] _ (H1 & H2 & H3 & H4). cbn [fst snd] in *. rewrite H4. auto.
Qed.
Lemma damage_loop_ok ds num : ds <> [] -> forall fuel acc rn, ok3 (fun r => rng_key (snd r) = rng_key rn) False (damage_loop fuel ds acc num rn).
Proof.
  intros N. induction fuel as [|fuel IH]; intros acc rn; cbn [damage_loop]; destruct (num <=? _); [exact eq_refl|exact I|exact eq_refl|].
  destruct ds as [|d0 ds0] eqn:E; [congruence|]. rewrite <- E in *. pose proof (uint32_key rn) as Hk. destruct (rng_uint32 rn) as [u rn1]. cbn [snd] in Hk.
  assert (L : (Z.to_nat (u mod Z.of_nat (length ds)) < length ds)%nat).
  { assert (0 < Z.of_nat (length ds)) by (rewrite E; cbn [length]; lia). pose proof (Z.mod_pos_bound u (Z.of_nat (length ds)) ltac:(lia)). lia. }
  rewrite (nth_or_panic_ok _ _ d0 L), bind_Ok. eapply ok3_mono; [apply IH|]. intros r _ Hr. cbv beta in *. rewrite Hr. exact Hk.
Qed.

(** ** one dealing after corruption *)
Definition mdc (su : setup) (k : Z) (d : dealing) (i : nat) (sk : Fq) : res opening :=
  m_decrypt_and_check (d_ct d) (d_cm d) (su_ad su) k (Z.of_nat i) sk (mul_by_g sk).
(** valid in public; exactly the receivers in [ts], at most [th] many, cannot use it *)
Definition settled (su : setup) (op : operation) (pair : bool) (k : Z) (d : dealing) (ts : list Z) : Prop :=
  publicly_verify d op (su_threshold su) k (su_receivers su) (su_ad su) = Ok tt /\
  (exists l, d_cm d = kcm pair l /\ Z.of_nat (length l) = su_threshold su) /\
  NoDup ts /\ Z.of_nat (length ts) <= su_threshold su /\
  forall i sk, nth_error (su_pk su) i = Some (mul_by_g sk) ->
    (In (Z.of_nat i) ts -> mdc su k d i sk = Err) /\ (~ In (Z.of_nat i) ts -> exists o, mdc su k d i sk = Ok o).
Lemma dealt_settled su op s k d : su_ready su -> dealt s (su_threshold su) (su_pk su) k (su_ad su) d -> share_consistent s op k ->
  settled su op (sh_pair s) k d [].
Proof.
  intros R D C. pose proof R as (Hk & Ht & _). pose proof (ready_pk su R) as Lp. split; [|split; [|split; [|split]]].
  - rewrite <- Lp. apply (dealt_publicly_verifies s op _ _ _ _ d (proj1 Ht) D C).
  - apply (dealt_cm _ _ _ _ _ _ (proj1 Ht) D).
  - constructor.
  - cbn [length]. lia.
  - intros i sk Hi. split; [intros []|]. intros _. destruct (dealt_opens _ _ _ _ _ _ _ _ (proj1 Ht) D Hi) as (o & E & _). exists o. exact E.
Qed.
Lemma pv_mdc su k d i sk pair l : d_cm d = kcm pair l -> l <> [] ->
  (forall o, mdc su k d i sk = Ok o -> private_verify d sk (mul_by_g sk) (su_ad su) k (Z.of_nat i) = Ok tt) /\
  (mdc su k d i sk = Err -> private_verify d sk (mul_by_g sk) (su_ad su) k (Z.of_nat i) = Err).
Proof.
  intros U N. unfold private_verify, mdc. assert (E : exists P, c_constant_term (d_cm d) = Ok P).
  { rewrite U. destruct l as [|P l]; [congruence|]. exists P. destruct pair; reflexivity. }
  destruct E as [P ->]. rewrite bind_Ok. split; [intros o ->|intros ->]; reflexivity.
Qed.
Lemma decrypt_shift_single e p pf ct ct' ad k i sk pk v c c' : m_decrypt (MSingle e p pf ct) ad k (Z.of_nat i) sk pk = Ok (OSimple v) ->
  length ct' = length ct -> nth_error ct i = Some c -> nth_error ct' i = Some c' ->
  m_decrypt (MSingle e p pf ct') ad k (Z.of_nat i) sk pk = Ok (OSimple (fadd v (fsub c' c))).
Proof.
  intros H L E E'. pose proof (nth_error_lt _ _ _ E) as Li. unfold m_decrypt in *. cbn [m_verify_pop] in *. apply bind_inv in H. destruct H as ([] & -> & H). rewrite bind_Ok.
  destruct (decrypt_single_ss_cases HX e ct ad k (Z.of_nat i) pk (smul sk e)) as (_ & _ & Q). destruct Q as (c0 & h & E0 & Eh & Q); [lia|].
  destruct (decrypt_single_ss_cases HX e ct' ad k (Z.of_nat i) pk (smul sk e)) as (_ & _ & Q'). destruct Q' as (c1 & h' & E1 & Eh' & Q'); [lia|].
  rewrite Nat2Z.id in *. assert (c0 = c) as -> by congruence. assert (c1 = c') as -> by congruence. assert (h' = h) as -> by congruence.
  rewrite Q in H. rewrite Q'. cbn [bind] in *. injection H as <-. do 2 f_equal. ring.
Qed.
Lemma decrypt_shift_pair e p pf ct ct' ad k i sk pk v m c c' : m_decrypt (MPair e p pf ct) ad k (Z.of_nat i) sk pk = Ok (OPedersen v m) ->
  length ct' = length ct -> nth_error ct i = Some c -> nth_error ct' i = Some c' ->
  m_decrypt (MPair e p pf ct') ad k (Z.of_nat i) sk pk = Ok (OPedersen (fadd v (fsub (fst c') (fst c))) (fadd m (fsub (snd c') (snd c)))).
Proof.
  intros H L E E'. pose proof (nth_error_lt _ _ _ E) as Li. unfold m_decrypt in *. cbn [m_verify_pop] in *. apply bind_inv in H. destruct H as ([] & -> & H). rewrite bind_Ok.
  destruct (decrypt_pair_ss_cases HX e ct ad k (Z.of_nat i) pk (smul sk e)) as (_ & _ & Q). destruct Q as (c0 & h & h2 & E0 & Eh & Q); [lia|].
  destruct (decrypt_pair_ss_cases HX e ct' ad k (Z.of_nat i) pk (smul sk e)) as (_ & _ & Q'). destruct Q' as (c1 & h' & h2' & E1 & Eh' & Q'); [lia|].
  rewrite Nat2Z.id in *. assert (c0 = c) as -> by congruence. assert (c1 = c') as -> by congruence. assert (h' = h) as -> by congruence. assert (h2' = h2) as -> by congruence.
  rewrite Q in H. rewrite Q'. cbn [bind fst snd] in *. injection H as <- <-. do 2 f_equal; ring.
Qed.
Lemma fadd_nonzero (v r : Fq) : fadd v r = v -> r = fzero.
Proof. intros H. assert (E : r = fsub (fadd v r) v) by ring. rewrite E, H. ring. Qed.
(** the dealing with other ciphertexts: what is public does not change *)
Lemma public_other_single e p pf ct ct' cm z op th k n ad : length ct' = length ct ->
  publicly_verify (mkdealing (MSingle e p pf ct') cm z) op th k n ad = publicly_verify (mkdealing (MSingle e p pf ct) cm z) op th k n ad.
Proof. intros L. unfold publicly_verify, m_check_validity. cbn [d_ct d_cm d_proof m_recipients m_verify_pop]. rewrite L. reflexivity. Qed.
Lemma public_other_pair e p pf ct ct' cm z op th k n ad : length ct' = length ct ->
  publicly_verify (mkdealing (MPair e p pf ct') cm z) op th k n ad = publicly_verify (mkdealing (MPair e p pf ct) cm z) op th k n ad.
Proof. intros L. unfold publicly_verify, m_check_validity. cbn [d_ct d_cm d_proof m_recipients m_verify_pop]. rewrite L. reflexivity. Qed.

Definition body su (pair : bool) k d : Prop := exists po mo, length po = Z.to_nat (su_threshold su) /\
  if pair then body_pair po mo (su_threshold su) (su_pk su) k (su_ad su) (d_ct d) (d_cm d)
  else body_single po (su_threshold su) (su_pk su) k (su_ad su) (d_ct d) (d_cm d).
Lemma dealt_body su s k d : dealt s (su_threshold su) (su_pk su) k (su_ad su) d -> body su (sh_pair s) k d.
Proof.
  destruct s as [|s|s m|l r rm|]; cbn [dealt sh_pair]; unfold body.
  - intros (po & mo & L & _ & B & _). exists po, mo. auto.
  - intros (po & L & _ & B & _). exists po, []. auto.
  - intros (po & z & L & _ & B & _). exists po, []. auto.
  - intros (po & mo & z & L & _ & _ & B & _). exists po, mo. auto.
  - contradiction.
Qed.
Lemma corrupt_settled su op pair k d ts seed : su_ready su -> body su pair k d -> settled su op pair k d [] ->
  NoDup ts -> Z.of_nat (length ts) <= su_threshold su -> (forall t, In t ts -> 0 <= t < su_receivers su) -> blen seed = 32 ->
  corrupt_dealing d ts seed = Diverge \/
  exists r rn' bad, random_scalar (mkrng seed 0) = Ok (r, rn') /\ corrupt_dealing d ts seed = Ok bad /\ d_cm bad = d_cm d /\
    publicly_verify bad op (su_threshold su) k (su_receivers su) (su_ad su) = Ok tt /\ (r <> fzero -> settled su op pair k bad ts).
Proof.
  intros R (po & mo & Lpo & B) (V & (l & U & Ll) & _ & _ & Hd) N Lt Hr Ls. pose proof R as (Hk & Ht & _). pose proof (ready_pk su R) as Lp.
  unfold corrupt_dealing. rewrite U. assert (Nl : l <> []) by (intros ->; cbn [length] in Ll; lia).
  assert (c_curve (kcm pair l) = Ok tt) as -> by (destruct l; [congruence|]; destruct pair; reflexivity). rewrite bind_Ok.
  rewrite seed_rng_ok by exact Ls. rewrite bind_Ok.
  destruct (random_scalar_cases (mkrng seed 0)) as [(r & rn' & Er)|Er]; rewrite Er; [|left; reflexivity]. rewrite bind_Ok. cbn [fst]. right. exists r, rn'.
  destruct d as [ct0 cm0 z]. cbn [d_ct d_cm d_proof] in *. subst cm0. destruct pair; cbn [kcm] in *.
  - destruct B as (e & p & pf & c & l' & -> & El & _ & C & Lc & _ & D). injection El as <-.
    destruct (update_all_ok ts (fun c0 : Fq * Fq => (fadd (fst c0) r, snd c0)) N c) as (c' & -> & Lc' & Hn).
    { intros t Hin. rewrite Lc, Lp. apply Hr, Hin. }
    rewrite bind_Ok. eexists. split; [reflexivity|]. split; [reflexivity|]. split; [reflexivity|].
    assert (V' : publicly_verify (mkdealing (MPair e p pf c') (CPedersen l) z) op (su_threshold su) k (su_receivers su) (su_ad su) = Ok tt).
    { rewrite (public_other_pair _ _ _ _ _ _ _ _ _ _ _ _ Lc'). exact V. }
    split; [exact V'|]. intros Nr. split; [exact V'|]. split; [exists l; auto|]. split; [exact N|]. split; [exact Lt|].
    intros i sk Hi. pose proof (nth_error_lt _ _ _ Hi) as Li. specialize (Hn i). pose proof (D i sk Hi) as Dm.
    destruct (nth_error c i) as [c0|] eqn:E0; [|apply nth_error_None in E0; lia]. split.
    + intros Hin. apply mem_in in Hin. rewrite Hin in Hn. cbn [option_map] in Hn.
      pose proof (decrypt_shift_pair _ _ _ _ _ _ _ _ _ _ _ _ _ _ Dm Lc' E0 Hn) as Dm'. cbn [fst snd] in Dm'.
      destruct (verified_check HX _ _ _ _ _ _ (Z.of_nat i) sk (mul_by_g sk) V' ltac:(lia)) as [F|(o & Eo)]; [exact F|]. exfalso.
      apply m_decrypt_and_check_inv in Eo. cbn [d_ct d_cm] in Eo. destruct Eo as [Eo K]. rewrite Dm' in Eo. injection Eo as <-.
      destruct (check_true_pedersen (CPedersen l) _ _ _ eq_refl K) as (_ & _ & Eg). cbn [oval omask] in Eg. rewrite (commits2_gev _ _ _ _ C) in Eg.
      rewrite !pev_spec, <- !node_x_eq in Eg.
      match type of Eg with pedersen ?a ?m = pedersen ?b ?m' => assert (Em : m' = m) by ring; rewrite Em in Eg; apply pedersen_inj_l in Eg end.
      apply Nr. match type of Eg with ?a = fadd ?a ?t => assert (Et : t = r) by ring; rewrite Et in Eg end. apply (fadd_nonzero _ _ (eq_sym Eg)).
    + intros Hin. destruct (mem (Z.of_nat i) ts) eqn:M; [apply mem_in in M; contradiction|].
      pose proof (decrypt_shift_pair _ _ _ _ _ _ _ _ _ _ _ _ _ _ Dm Lc' E0 Hn) as Dm'.
      destruct (proj2 (Hd i sk Hi) (fun H => H)) as (o & Eo). exists o. unfold mdc, m_decrypt_and_check in *. cbn [d_ct d_cm] in *.
      rewrite Dm'. rewrite Dm in Eo. rewrite <- Eo. f_equal. do 2 f_equal; ring.
  - destruct B as (e & p & pf & c & l' & -> & El & _ & C & Lc & _ & D). injection El as <-.
    destruct (update_all_ok ts (fun c0 : Fq => fadd c0 r) N c) as (c' & -> & Lc' & Hn).
    { intros t Hin. rewrite Lc, Lp. apply Hr, Hin. }
    rewrite bind_Ok. eexists. split; [reflexivity|]. split; [reflexivity|]. split; [reflexivity|].
    assert (V' : publicly_verify (mkdealing (MSingle e p pf c') (CSimple l) z) op (su_threshold su) k (su_receivers su) (su_ad su) = Ok tt).
    { rewrite (public_other_single _ _ _ _ _ _ _ _ _ _ _ _ Lc'). exact V. }
    split; [exact V'|]. intros Nr. split; [exact V'|]. split; [exists l; auto|]. split; [exact N|]. split; [exact Lt|].
    intros i sk Hi. pose proof (nth_error_lt _ _ _ Hi) as Li. specialize (Hn i). pose proof (D i sk Hi) as Dm.
    destruct (nth_error c i) as [c0|] eqn:E0; [|apply nth_error_None in E0; lia]. split.
    + intros Hin. apply mem_in in Hin. rewrite Hin in Hn. cbn [option_map] in Hn.
      pose proof (decrypt_shift_single _ _ _ _ _ _ _ _ _ _ _ _ _ Dm Lc' E0 Hn) as Dm'.
      destruct (verified_check HX _ _ _ _ _ _ (Z.of_nat i) sk (mul_by_g sk) V' ltac:(lia)) as [F|(o & Eo)]; [exact F|]. exfalso.
      apply m_decrypt_and_check_inv in Eo. cbn [d_ct d_cm] in Eo. destruct Eo as [Eo K]. rewrite Dm' in Eo. injection Eo as <-.
      destruct (check_true_simple (CSimple l) _ _ _ eq_refl K) as (_ & _ & Eg). cbn [oval] in Eg. rewrite (commits_gev _ _ _ C) in Eg.
      rewrite pev_spec, <- node_x_eq in Eg. apply mul_by_g_inj in Eg.
      apply Nr. match type of Eg with ?a = fadd ?a ?t => assert (Et : t = r) by ring; rewrite Et in Eg end. apply (fadd_nonzero _ _ (eq_sym Eg)).
    + intros Hin. destruct (mem (Z.of_nat i) ts) eqn:M; [apply mem_in in M; contradiction|].
      pose proof (decrypt_shift_single _ _ _ _ _ _ _ _ _ _ _ _ _ Dm Lc' E0 Hn) as Dm'.
      destruct (proj2 (Hd i sk Hi) (fun H => H)) as (o & Eo). exists o. unfold mdc, m_decrypt_and_check in *. cbn [d_ct d_cm] in *.
      rewrite Dm'. rewrite Dm in Eo. rewrite <- Eo. f_equal. do 2 f_equal; ring.
Qed.

(** ** the receivers *)
Lemma receiver_info_eq su : su_ready su ->
  receiver_info su = Ok (map (fun i => (nth i (su_sk su) fzero, mul_by_g (nth i (su_sk su) fzero), Z.of_nat i)) (seq 0 (Z.to_nat (su_receivers su)))).
Proof.
  intros R. pose proof R as (Hk & Ht & L). unfold receiver_info, go_make. destruct (Z.ltb_spec (su_receivers su) 0); [lia|]. rewrite bind_Ok.
  apply mapM_total. intros i Hin. apply in_seq in Hin. assert (Es : nth_error (su_sk su) i = Some (nth i (su_sk su) fzero)) by (apply nth_error_nth'; lia).
  unfold nth_or_panic. rewrite Es, (keys_pk _ _ _ Hk Es). reflexivity.
Qed.
Definition info su (e : Fq * G * Z) : Prop := exists i sk, e = (sk, mul_by_g sk, Z.of_nat i) /\ nth_error (su_sk su) i = Some sk /\ nth_error (su_pk su) i = Some (mul_by_g sk).
Lemma ready_nth su i : su_ready su -> (i < Z.to_nat (su_receivers su))%nat ->
  nth_error (su_sk su) i = Some (nth i (su_sk su) fzero) /\ nth_error (su_pk su) i = Some (mul_by_g (nth i (su_sk su) fzero)).
Proof.
  intros (Hk & Ht & L) Hi. assert (Es : nth_error (su_sk su) i = Some (nth i (su_sk su) fzero)) by (apply nth_error_nth'; lia).
  split; [exact Es|apply (keys_pk _ _ _ Hk Es)].
Qed.
Lemma info_all su e : su_ready su -> In e (map (fun i => (nth i (su_sk su) fzero, mul_by_g (nth i (su_sk su) fzero), Z.of_nat i)) (seq 0 (Z.to_nat (su_receivers su)))) -> info su e.
Proof.
  intros R Hin. apply in_map_iff in Hin. destruct Hin as (i & <- & Hin). apply in_seq in Hin. exists i, (nth i (su_sk su) fzero).
  destruct (ready_nth su i R) as [E1 E2]; [lia|]. auto.
Qed.

(** the check of a corrupted dealing passes exactly if it is settled *)
Lemma check_corrupted_ok su op pair k d ts : su_ready su -> settled su op pair k d (map fst ts) -> check_corrupted su d k ts = Ok tt.
Proof.
  intros R (V & (l & U & Ll) & _ & _ & H). pose proof R as (Hk & Ht & _). unfold check_corrupted. rewrite (receiver_info_eq su R), bind_Ok.
  match goal with |- context [mapM ?f ?ri] => destruct (mapM_units f ri) as [us ->] end; [|reflexivity].
  intros e Hin. apply (info_all su e R) in Hin. destruct Hin as (i & sk & -> & Es & Ep). destruct (H i sk Ep) as [H1 H2].
  destruct (pv_mdc su k d i sk pair l U ltac:(intros ->; cbn [length] in Ll; lia)) as [P1 P2].
  destruct (zlookup (Z.of_nat i) ts) as [u|] eqn:E.
  - rewrite P2; [reflexivity|]. apply H1. apply zlookup_in in E. apply (in_map fst) in E. exact E.
  - apply zlookup_none in E. destruct (H2 E) as [o Eo]. rewrite (P1 o Eo). reflexivity.
Qed.
Lemma check_corrupted_inv su op pair k d ts l : su_ready su -> publicly_verify d op (su_threshold su) k (su_receivers su) (su_ad su) = Ok tt ->
  d_cm d = kcm pair l -> Z.of_nat (length l) = su_threshold su -> NoDup (map fst ts) -> Z.of_nat (length ts) <= su_threshold su ->
  ok3 (fun _ => settled su op pair k d (map fst ts)) True (check_corrupted su d k ts).
Proof.
  intros R V U Ll N Lt. pose proof R as (Hk & Ht & _). pose proof (ready_pk su R) as Lp. unfold check_corrupted. rewrite (receiver_info_eq su R), bind_Ok.
  match goal with |- context [mapM ?f ?ri] => set (F := f); set (ri0 := ri) end.
  assert (Hf : forall e, In e ri0 -> F e <> Err).
  { intros e Hin. apply (info_all su e R) in Hin. destruct Hin as (i & sk & -> & _). unfold F.
    destruct (private_verify _ _ _ _ _ _); destruct (zlookup (Z.of_nat i) ts); discriminate. }
  assert (Hm : mapM F ri0 <> Err).
  { clear - Hf. induction ri0 as [|e ri IH]; [discriminate|]. cbn [mapM]. pose proof (Hf e (or_introl eq_refl)) as He.
    destruct (F e); try discriminate; [|congruence]. rewrite bind_Ok. specialize (IH (fun x Hx => Hf x (or_intror Hx))).
    destruct (mapM F ri); try discriminate. congruence. }
  destruct (mapM F ri0) as [us| | |] eqn:E; [|congruence|exact I|exact I]. rewrite bind_Ok. cbn [ok3].
  split; [exact V|]. split; [exists l; auto|]. split; [exact N|]. rewrite map_length. split; [exact Lt|].
  intros i sk Hi. pose proof (nth_error_lt _ _ _ Hi) as Li.
  destruct (ready_nth su i R) as [E1 E2]; [lia|]. assert (Esk : sk = nth i (su_sk su) fzero) by (apply mul_by_g_inj; congruence).
  assert (Hin : In (sk, mul_by_g sk, Z.of_nat i) ri0).
  { unfold ri0. rewrite Esk. apply (in_map (fun i => (nth i (su_sk su) fzero, mul_by_g (nth i (su_sk su) fzero), Z.of_nat i))). apply in_seq. lia. }
  pose proof (mapM_unit F _ _ E _ Hin) as Hu. unfold F in Hu.
  destruct (pv_mdc su k d i sk pair l U ltac:(intros ->; cbn [length] in Ll; lia)) as [P1 P2].
  destruct (verified_check HX _ _ _ _ _ _ (Z.of_nat i) sk (mul_by_g sk) V ltac:(lia)) as [Fa|(o & Eo)].
  - rewrite (P2 Fa) in Hu. destruct (zlookup (Z.of_nat i) ts) as [u|] eqn:El; [|discriminate]. split; [intros _; exact Fa|].
    intros Nin. exfalso. apply Nin. apply zlookup_in in El. apply (in_map fst) in El. exact El.
  - rewrite (P1 o Eo) in Hu. destruct (zlookup (Z.of_nat i) ts) as [u|] eqn:El; [discriminate|]. apply zlookup_none in El. split; [contradiction|].
    intros _. exists o. exact Eo.
Qed.

(** ** CreateDealings with corruption *)
(** among the scalars that the generator seeded with [s] can produce for a
    corruption is zero, so that the corruption would change nothing *)
Definition zero_draw (s : bytes) : Prop := exists pos sd rn' rn'',
  seed_from_rng (mkrng s pos) = Ok (sd, rn') /\ random_scalar (mkrng sd 0) = Ok (fzero, rn'').
Definition all_settled su op pair (ds : list (Z * dealing)) : Prop :=
  asc ds /\ forall k d, In (k, d) ds -> 0 <= k /\ exists ts, settled su op pair k d ts.
Lemma zset_keep {A} k (a : A) l e : k < fst e -> In e l -> In e (zset k a l).
Proof.
  intros Hne. induction l as [|[i b] l IH]; intros Hd; [destruct Hd|]. cbn [zset]. destruct (k <? i); [right; exact Hd|].
  destruct (Z.eqb_spec k i) as [->|].
  - destruct Hd as [E|Hd]; [subst e; cbn [fst] in Hne; lia|right; exact Hd].
  - destruct Hd as [E|Hd]; [left; exact E|right; apply IH, Hd].
Qed.
Lemma corrupt_loop_ok su op pair s0 : su_ready su -> forall todo ds rn, rng_key rn = s0 -> all_settled su op pair ds -> asc todo ->
  (forall e, In e todo -> In e ds) -> (forall k d, In (k, d) todo -> body su pair k d /\ settled su op pair k d []) ->
  ok3 (fun r => all_settled su op pair r /\ map fst r = map fst ds) (zero_draw s0) (corrupt_loop su todo ds rn).
Proof.
  intros R. pose proof R as (Hk & Ht & _). induction todo as [|[k d] todo IH]; intros ds rn Hs A Ha Hi Hb; cbn [corrupt_loop]; [cbn; auto|].
  pose proof (uint32_nonneg rn) as Hu. pose proof (uint32_key rn) as Hk1. destruct (rng_uint32 rn) as [u rn1]. cbn [fst snd] in Hu, Hk1.
  destruct (Z.eqb_spec (su_threshold su) 0); [lia|].
  pose proof (Z.rem_bound_pos u (su_threshold su) Hu (proj1 Ht)) as Hq.
  eapply ok3_bind; [apply (ok3_C _ False); [|contradiction]; apply (target_loop_ok (su_receivers su) (Z.rem u (su_threshold su) + 1)); [lia|lia|constructor|cbn [length]; lia|intros e []]|].
  intros [ts rn2] _ (T1 & T2 & T3 & T4). cbn [fst snd] in T1, T2, T3, T4.
  destruct (seed_from_rng_key rn2) as (sd & rn3 & Esd & Lsd & Hk3). rewrite Esd, bind_Ok.
  destruct (Hb k d (or_introl eq_refl)) as [B S].
  assert (Nt : NoDup (map fst ts)) by (apply asc_nodup, T1).
  assert (Lt : Z.of_nat (length (map fst ts)) <= su_threshold su) by (rewrite map_length; lia).
  destruct (corrupt_settled su op pair k d (map fst ts) sd R B S Nt Lt) as [E|(r & rn' & bad & Er & E & Ec & V & Hr)]; [|exact Lsd|rewrite E; exact I|].
  { intros t Hin. apply in_map_iff in Hin. destruct Hin as (e & <- & Hin). apply T3, Hin. }
  rewrite E, bind_Ok. pose proof S as (_ & (l & U & Ll) & _).
  assert (Q : ok3 (fun _ => settled su op pair k bad (map fst ts)) (zero_draw s0) (check_corrupted su bad k ts)).
  { destruct (fe_dec _ r fzero) as [->|Nr].
    - eapply ok3_C; [apply (check_corrupted_inv su op pair k bad ts l R V); [congruence|exact Ll|exact Nt|rewrite map_length in Lt; exact Lt]|].
      intros _. exists (rng_pos rn2), sd, rn3, rn'. split; [|exact Er].
      replace (mkrng s0 (rng_pos rn2)) with rn2; [exact Esd|]. destruct rn2 as [key2 pos2]. assert (E2 : key2 = s0) by (change key2 with (rng_key (mkrng key2 pos2)); congruence). rewrite E2. reflexivity.
    - rewrite (check_corrupted_ok su op pair k bad ts R (Hr Nr)). cbn. apply Hr, Nr. }
  eapply ok3_bind; [exact Q|]. intros [] _ Sb. apply asc_cons in Ha. destruct Ha as [Ha Hlt]. destruct A as [A1 A2].
  pose proof (Hi _ (or_introl eq_refl)) as Hin.
  eapply ok3_mono; [apply (IH (zset k bad ds) rn3); [congruence| |exact Ha| |]|].
  - split; [apply zset_asc, A1|]. intros k' d' Hin'. apply zset_in in Hin'. destruct Hin' as [Eq|Hin']; [|apply A2, Hin'].
    injection Eq as -> ->. split; [apply (A2 _ _ Hin)|]. exists (map fst ts). exact Sb.
  - intros e He. apply zset_keep; [apply Hlt, He|apply Hi; right; exact He].
  - intros k' d' Hin'. apply Hb. right. exact Hin'.
  - intros r0 _ [H1 H2]. split; [exact H1|]. rewrite H2. apply zset_keys; [exact A1|]. apply (in_map fst) in Hin. exact Hin.
Qed.
Lemma dealt_all_settled su op pair shs ds : su_ready su -> dealt_all su ds shs -> map fst ds = map Z.of_nat (seq 0 (length shs)) ->
  (forall s, In s shs -> sh_pair s = pair) -> (forall j s, nth_error shs j = Some s -> share_consistent s op (Z.of_nat j)) ->
  forall k d, In (k, d) ds -> 0 <= k < Z.of_nat (length shs) /\ body su pair k d /\ settled su op pair k d [].
Proof.
  intros R Da Kf Hp Hc k d Hin. apply In_nth_error in Hin. destruct Hin as [j Hj].
  pose proof (map_nth_error fst _ _ Hj) as Kj. rewrite Kf in Kj. cbn [fst] in Kj.
  assert (Lj : (j < length shs)%nat) by (apply nth_error_lt in Kj; rewrite map_length, seq_length in Kj; exact Kj).
  assert (Ek : k = Z.of_nat j) by (apply nth_seq_map in Kj; exact Kj).
  assert (Q : exists s, nth_error shs j = Some s /\ dealt s (su_threshold su) (su_pk su) k (su_ad su) d).
  { clear - Da Hj. revert j Hj. induction Da as [|kd s ds shs D _ IH]; intros [|j] Hj; cbn [nth_error] in *; try discriminate.
    - injection Hj as ->. exists s. auto.
    - apply IH, Hj. }
  destruct Q as (s & Es & D). rewrite <- (Hp s (nth_error_In _ _ Es)). split; [lia|]. split; [apply dealt_body, D|].
  apply dealt_settled; [exact R|exact D|]. rewrite Ek. apply Hc, Es.
Qed.
Lemma seq_asc {A} (ds : list (Z * A)) n : map fst ds = map Z.of_nat (seq 0 n) -> asc ds.
Proof.
  intros E. unfold asc. rewrite E. clear. generalize 0%nat. induction n as [|n IH]; intros m; cbn [seq map]; [constructor|]. constructor; [apply IH|].
  apply Forall_forall. intros x Hx. apply in_map_iff in Hx. destruct Hx as (j & <- & Hx). apply in_seq in Hx. lia.
Qed.
Lemma create_corrupt_ok su op pair shs nc seed : su_ready su -> blen seed = 32 -> Z.of_nat (length shs) = su_receivers su ->
  (forall s, In s shs -> sh_pair s = pair) -> (forall j s, nth_error shs j = Some s -> share_consistent s op (Z.of_nat j)) ->
  ok3 (fun ds => all_settled su op pair ds /\ map fst ds = map Z.of_nat (seq 0 (length shs))) (mis su \/ zero_draw seed)
    (create_dealings su shs (su_receivers su) nc op seed).
Proof.
  intros R Ls Ln Hp Hc. pose proof R as (Hk & Ht & _). unfold create_dealings. rewrite seed_rng_ok by exact Ls. rewrite bind_Ok.
  eapply ok3_bind; [apply (ok3_C _ (mis su)); [apply (deal_loop_ok HX su op R shs 0 _); [lia|lia|exact Hc]|auto]|].
  intros [ds rn] Ed [H1 H2]. apply deal_loop_key in Ed. cbn [fst] in H1, H2. rewrite (map_ext _ Z.of_nat) in H2 by (intros j; lia).
  assert (Ld : length ds = length shs) by (rewrite <- (map_length fst ds), H2, map_length, seq_length; reflexivity).
  unfold delete_down. cbn [delete_loop]. destruct (Z.leb_spec (Z.of_nat (length ds)) (su_receivers su)); [|lia]. rewrite bind_Ok.
  pose proof (dealt_all_settled su op pair shs ds R H1 H2 Hp Hc) as Hd.
  eapply ok3_bind; [apply (ok3_C _ False); [apply damage_loop_ok; intros ->; cbn [length] in Ld; lia|contradiction]|].
  intros [bad rn3] E3 K3. cbn [snd] in K3.
  eapply ok3_C; [eapply ok3_mono; [apply (corrupt_loop_ok su op pair seed R bad ds rn3)|]|].
  - rewrite K3, Ed. reflexivity.
  - split; [apply (seq_asc ds (length shs)), H2|]. intros k d Hin. destruct (Hd k d Hin) as (B & _ & S). split; [lia|]. exists []. exact S.
  - apply (damage_loop_asc _ _ _ _ _ _ _ E3). constructor.
  - apply (damage_loop_in _ _ _ _ _ _ _ E3). intros e [].
  - intros k d Hin. apply (damage_loop_in _ _ _ _ _ _ _ E3) in Hin; [|intros e []]. apply (Hd k d Hin).
  - intros r _ [A1 A2]. split; [exact A1|]. rewrite A2. exact H2.
  - auto.
Qed.

(** ** opening *)
Lemma open_for_ok su op pair k d ts rcv : su_ready su -> settled su op pair k d ts -> forall ri, (forall e, In e ri -> info su e) ->
  exists os, open_for su d k rcv ri = Ok os /\ map fst os = filter (fun j => negb (j =? rcv) && negb (mem j ts)) (map snd ri) /\
    forall ko, In ko os -> c_check_opening (d_cm d) (fst ko) (snd ko) = Ok true.
Proof.
  intros R (V & (l & U & Ll) & _ & _ & H). pose proof R as (Hk & Ht & _). induction ri as [|e ri IH]; intros Hr; cbn [open_for].
  { exists []. repeat split. intros ko []. }
  destruct IH as (os & Eo & Ef & Ec); [intros e' He; apply Hr; right; exact He|].
  destruct (Hr e (or_introl eq_refl)) as (i & sk & -> & Es & Ep). cbn [map snd filter].
  destruct (Z.eqb_spec (Z.of_nat i) rcv) as [Er|Nr]; cbn [negb andb]; [exists os; auto|].
  destruct (H i sk Ep) as [H1 H2]. destruct (pv_mdc su k d i sk pair l U ltac:(intros ->; cbn [length] in Ll; lia)) as [P1 P2].
  destruct (mem (Z.of_nat i) ts) eqn:M; cbn [negb].
  - rewrite P2 by (apply H1, mem_in, M). exists os. auto.
  - destruct H2 as [o Em]; [intros Hin; apply mem_in in Hin; congruence|]. rewrite (P1 o Em), (index_nth _ _ _ Es), (index_nth _ _ _ Ep), !bind_Ok.
    unfold open_dealing. unfold mdc in Em. rewrite Em. cbn [or_panic bind]. pose proof (decrypt_and_check_sound _ _ _ _ _ _ _ _ Em) as K. rewrite K, bind_Ok, Eo, bind_Ok.
    exists ((Z.of_nat i, o) :: os). split; [reflexivity|]. cbn [map fst]. split; [rewrite Ef; reflexivity|]. intros ko [<-|Hin]; [exact K|apply Ec, Hin].
Qed.
Definition usable su (d : dealing) (os : list (Z * opening)) : Prop :=
  keys_ok os /\ su_threshold su <= Z.of_nat (length os) /\ forall ko, In ko os -> c_check_opening (d_cm d) (fst ko) (snd ko) = Ok true.
Lemma answer_loop_ok su op pair ds rcv pk : su_ready su -> 2 * su_threshold su <= su_receivers su -> all_settled su op pair ds ->
  forall cs rn, (forall k c, In (k, c) cs -> exists d, In (k, d) ds /\ complaint_verify c d k rcv pk (su_ad su) = Ok tt /\
    forall ts, settled su op pair k d ts -> In rcv ts) ->
  exists pr rn', answer_loop su ds rcv pk cs rn = Ok (pr, rn') /\ map fst pr = map fst cs /\
    forall k os, In (k, os) pr -> exists d, In (k, d) ds /\ usable su d os.
Proof.
  intros R H2 [As Hs]. pose proof R as (Hk & Ht & Lsk). induction cs as [|[k c] cs IH]; intros rn Hc; cbn [answer_loop].
  { exists [], rn. repeat split. intros k os []. }
  destruct (Hc k c (or_introl eq_refl)) as (d & Hin & Vc & Hrcv). rewrite (zlookup_some _ _ _ (asc_nodup _ As) Hin), Vc, bind_Ok.
  rewrite (receiver_info_eq su R), bind_Ok. destruct (Hs k d Hin) as (_ & ts & S).
  match goal with |- context [open_for su d k rcv ?ri] => destruct (open_for_ok su op pair k d ts rcv R S ri) as (os & -> & Ef & Ec) end.
  { intros e He. apply (info_all su e R He). }
  rewrite bind_Ok. rewrite map_map in Ef. cbn [snd] in Ef.
  assert (Ao : asc os).
  { unfold asc. rewrite Ef. clear. generalize 0%nat. induction (Z.to_nat (su_receivers su)) as [|n IH]; intros m; cbn [seq map filter]; [constructor|].
    destruct (_ && _); [|apply IH]. constructor; [apply IH|]. apply Forall_forall. intros x Hx. apply filter_In in Hx. destruct Hx as [Hx _].
    apply in_map_iff in Hx. destruct Hx as (j & <- & Hx). apply in_seq in Hx. lia. }
  assert (Lo : su_threshold su <= Z.of_nat (length os)).
  { rewrite <- (map_length fst os), Ef. pose proof (Hrcv ts S) as Hm. apply mem_in in Hm.
    rewrite (filter_ext _ (fun j => negb (mem j ts))).
    - pose proof (filter_not_mem ts (map Z.of_nat (seq 0 (Z.to_nat (su_receivers su))))) as Q. rewrite map_length, seq_length in Q.
      assert (Nd : NoDup (map Z.of_nat (seq 0 (Z.to_nat (su_receivers su))))) by (apply FinFun.Injective_map_NoDup; [intros a b; apply Nat2Z.inj|apply seq_NoDup]).
      specialize (Q Nd). destruct S as (_ & _ & _ & Lt & _). change (fun x : nat => Z.of_nat x) with Z.of_nat. lia.
    - intros j. destruct (Z.eqb_spec j rcv) as [->|]; [rewrite Hm; reflexivity|reflexivity]. }
  destruct (delete_down_total os (su_threshold su) rn ltac:(lia)) as (os' & rn1 & E1). rewrite E1, bind_Ok.
  destruct (delete_down_incl _ _ _ _ _ Ao E1) as (A1 & A2 & A3 & A4).
  destruct (IH rn1) as (pr & rn2 & -> & Km & Hp); [intros k' c' Hin'; apply Hc; right; exact Hin'|]. rewrite bind_Ok.
  exists ((k, os') :: pr), rn2. split; [reflexivity|]. cbn [map fst]. split; [rewrite Km; reflexivity|]. intros k' os0 [E|Hin0]; [|apply Hp, Hin0].
  injection E as <- <-. exists d. split; [exact Hin|]. split; [|split; [apply A4, Lo|intros ko Hko; apply Ec, A2, Hko]].
  split; [|apply asc_nodup, A1]. apply Forall_forall. intros j Hj. apply in_map_iff in Hj. destruct Hj as (ko & <- & Hko). apply A2 in Hko.
  apply (in_map fst) in Hko. rewrite Ef in Hko. apply filter_In in Hko. destruct Hko as [Hko _]. apply in_map_iff in Hko. destruct Hko as (i & <- & Hi). apply in_seq in Hi.
  destruct Hk as [_ Hk]. unfold int64_ok. lia.
Qed.
Lemma settled_private su op pair k d ts i sk : su_ready su -> settled su op pair k d ts -> nth_error (su_pk su) i = Some (mul_by_g sk) ->
  mdc su k d i sk = Err \/ private_verify d sk (mul_by_g sk) (su_ad su) k (Z.of_nat i) = Ok tt /\ exists o, mdc su k d i sk = Ok o.
Proof.
  intros R (V & (l & U & Ll) & _ & _ & H) Hi. pose proof R as (Hk & Ht & _). destruct (H i sk Hi) as [H1 H2].
  destruct (pv_mdc su k d i sk pair l U ltac:(intros ->; cbn [length] in Ll; lia)) as [P1 P2].
  destruct (in_dec Z.eq_dec (Z.of_nat i) ts) as [M|M]; [left; auto|]. right. destruct (H2 M) as [o Eo]. eauto.
Qed.
Lemma open_loop_corrupt_ok su pair ds op t seed : su_ready su -> 2 * su_threshold su <= su_receivers su -> keys_ok ds -> op <> TOther -> op_single op = negb pair ->
  new_transcript (su_threshold su) ds op = Ok t -> all_settled su op pair ds ->
  forall is rn, (forall i, In i is -> (i < length (su_sk su))%nat) -> ok3 (fun _ => True) False (open_loop su ds (tr_commitment t) seed is rn).
Proof.
  intros R H2 K No Ho Et A. pose proof R as (Hk & Ht & Lsk). pose proof (ready_pk su R) as Lp. pose proof A as [As Hs].
  assert (Kd : forall kd, In kd ds -> kind_ok op (d_cm (snd kd)) /\ exists l, d_cm (snd kd) = CSimple l \/ d_cm (snd kd) = CPedersen l).
  { intros [k d] Hin. destruct (Hs k d Hin) as (_ & ts & _ & (l & U & _) & _). cbn [snd]. rewrite U. unfold kind_ok. rewrite Ho.
    destruct pair; cbn [negb kcm unwrap]; split; try reflexivity; exists l; auto. }
  induction is as [|i is IH]; intros rn Hi; cbn [open_loop]; [exact I|].
  pose proof (Hi i (or_introl eq_refl)) as Li. specialize (fun r => IH r (fun j Hj => Hi j (or_intror Hj))).
  assert (Es : nth_error (su_sk su) i = Some (nth i (su_sk su) fzero)) by (apply nth_error_nth'; lia). pose proof (keys_pk _ _ _ Hk Es) as Ep.
  set (sk := nth i (su_sk su) fzero) in *. unfold nth_or_panic. rewrite Es, Ep, !bind_Ok.
  assert (Dec : (forall k d, In (k, d) ds -> private_verify d sk (mul_by_g sk) (su_ad su) k (Z.of_nat i) = Ok tt) \/ exists k d, In (k, d) ds /\ mdc su k d i sk = Err).
  { clear - R Hs Ep HX GL. induction ds as [|[k d] ds IH]; [left; intros k d []|]. destruct (Hs k d (or_introl eq_refl)) as (_ & ts & S).
    destruct (settled_private su op pair k d ts i sk R S Ep) as [E|[P _]]; [right; exists k, d; split; [left; reflexivity|exact E]|].
    destruct IH as [IH|(k' & d' & Hin & E)]; [intros k' d' Hin; apply Hs; right; exact Hin| |right; exists k', d'; split; [right; exact Hin|exact E]].
    left. intros k' d' [Eq|Hin]; [injection Eq as <- <-; exact P|apply IH, Hin]. }
  destruct Dec as [All|(k0 & d0 & Hin0 & E0)].
  - destruct (from_dealings_complete (su_threshold su) ds op t (su_ad su) (Z.of_nat i) sk (mul_by_g sk) K (proj1 Ht) No Et) as [o ->].
    { intros [k d] Hin. split; [apply (proj1 (Kd _ Hin))|apply All, Hin]. }
    eapply ok3_bind; [apply IH|]. intros r _ _. exact I.
  - assert (Ef : from_dealings ds (tr_commitment t) (su_ad su) (Z.of_nat i) sk (mul_by_g sk) = Err).
    { unfold from_dealings. rewrite mapM_err; [reflexivity| |exists (k0, d0); split; [exact Hin0|exact E0]].
      intros [k d] Hin. destruct (Hs k d Hin) as (_ & ts & S). destruct (settled_private su op pair k d ts i sk R S Ep) as [E|[_ E]]; [left; exact E|right; exact E]. }
    rewrite Ef. destruct (new_seed_total HX seed (receiver_dst (Z.of_nat i))) as (s & -> & _). rewrite bind_Ok.
    assert (Hv : forall k d, In (k, d) ds -> publicly_verify d op (su_threshold su) k (su_receivers su) (su_ad su) = Ok tt).
    { intros k d Hin. destruct (Hs k d Hin) as (_ & ts & V & _). exact V. }
    assert (Tot : (exists r, complaints_loop ds (su_ad su) (Z.of_nat i) sk (mul_by_g sk) s = Ok r) \/ complaints_loop ds (su_ad su) (Z.of_nat i) sk (mul_by_g sk) s = Diverge).
    { apply (loop_total HX). intros k d Hin. split.
      - intros E. pose proof (kinds_of_verified _ _ _ _ _ _ (Hv k d Hin)) as Km. unfold kinds_match in Km. rewrite E in Km. exact Km.
      - apply (verified_check HX d op (su_threshold su) k (su_receivers su)); [apply Hv, Hin|lia]. }
    unfold generate_complaints. destruct Tot as [(cs & Ecs)|Ecs]; rewrite Ecs; [|exact I]. rewrite bind_Ok.
    apply loop_spec in Ecs. destruct Ecs as (C1 & C2 & _). destruct (C2 k0 d0 Hin0 E0) as [c0 Hc0].
    destruct cs as [|c1 cs1] eqn:Ec; [destruct Hc0|]. rewrite <- Ec in *. clear Ec. rewrite bind_Ok.
    destruct (answer_loop_ok su op pair ds (Z.of_nat i) (mul_by_g sk) R H2 A cs rn) as (pr & rn' & -> & Km & Hp).
    { intros k c Hin. destruct (C1 k c Hin) as (d & s' & Hd & F & _ & Nc). exists d. split; [exact Hd|]. split.
      - apply (honest_complaint HX s' d k (Z.of_nat i) sk (su_ad su) c Nc).
        + apply (kinds_of_verified _ _ _ _ _ _ (Hv k d Hd)).
        + pose proof (Hv k d Hd) as V. apply publicly_verify_inv in V. apply V.
        + left. exact F.
        + lia.
        + pose proof (Hv k d Hd) as V. apply publicly_verify_inv in V. destruct V as (_ & _ & Rc & _). exists (su_receivers su). split; [exact Rc|lia].
        + exact F.
      - intros ts (_ & _ & _ & _ & Hm). destruct (in_dec Z.eq_dec (Z.of_nat i) ts) as [M|M]; [exact M|]. destruct (proj2 (Hm i sk Ep) M) as [o Eo].
        unfold fails in F. cbn [fst snd] in F. unfold mdc in Eo. congruence. }
    rewrite bind_Ok.
    destruct (from_dealings_and_openings_complete (su_threshold su) ds pr op t (su_ad su) (Z.of_nat i) sk (mul_by_g sk) K (proj1 Ht) No Et) as [o ->].
    { intros [k d] Hin. destruct (Kd _ Hin) as [Kd1 Kd2]. split; [exact Kd1|]. cbn [fst snd] in *.
      destruct (zlookup k pr) as [os|] eqn:El.
      - apply zlookup_in in El. destruct (Hp k os El) as (d' & Hin' & U1 & U2 & U3).
        assert (d' = d) as -> by (pose proof (zlookup_some _ _ _ (asc_nodup _ As) Hin) as Z1; pose proof (zlookup_some _ _ _ (asc_nodup _ As) Hin') as Z2; congruence).
        split; [exact Kd2|]. split; [exact U1|]. split; [exact U2|exact U3].
      - apply zlookup_none in El. rewrite Km in El. destruct (Hs k d Hin) as (_ & ts & S).
        destruct (settled_private su op pair k d ts i sk R S Ep) as [E|[P _]]; [|exact P]. exfalso. apply El. destruct (C2 k d Hin E) as [c Hc].
        apply (in_map fst) in Hc. exact Hc. }
    cbn [or_panic bind]. eapply ok3_bind; [apply IH|]. intros r _ _. exact I.
Qed.

(** ** one round *)
(** what can make the drivers' own checks panic in a round *)
Definition bad_round (su : setup) : Prop := mis su \/ exists s, seed_derive (su_seed su) (round_dst (su_round su)) = Ok s /\ zero_draw s.
Lemma round_run_corrupt_ok su op pair shs nc : su_ready su -> 2 * su_threshold su <= su_receivers su -> Z.of_nat (length shs) = su_receivers su ->
  (forall s, In s shs -> sh_pair s = pair) -> op_single op = negb pair ->
  (forall j s, nth_error shs j = Some s -> share_consistent s op (Z.of_nat j)) -> op_prev (su_receivers su) op ->
  ok3 (fun r => su_seed (snd r) = su_seed su /\ su_round (snd r) = su_round su + 1) (bad_round su) (round_run cbor_cm su shs (su_receivers su) nc op).
Proof.
  intros R H2 Ln Hp Ho Hc Op. unfold round_run, next_dealing_seed.
  destruct (new_seed_total HX (su_seed su) (round_dst (su_round su))) as (s1 & E1 & L1). rewrite E1, !bind_Ok.
  set (su1 := mksetup _ _ _ _ _ _ _). assert (R1 : su_ready su1) by exact R.
  change (su_receivers su) with (su_receivers su1) in Ln, Op, H2. change (su_threshold su) with (su_threshold su1) in H2. change (su_receivers su) with (su_receivers su1).
  eapply ok3_bind.
  { eapply ok3_C; [apply (create_corrupt_ok su1 op pair shs nc s1 R1 L1 Ln Hp Hc)|]. intros [M|M]; [left; exact M|right; eauto]. }
  intros ds _ [A Kf]. assert (Q : su_seed su1 = su_seed su /\ su_round su1 = su_round su + 1) by (split; reflexivity). clearbody su1. clear R.
  pose proof R1 as (Hk & Ht & Lsk).
  assert (Ld : length ds = length shs) by (rewrite <- (map_length fst ds), Kf, map_length, seq_length; reflexivity).
  assert (K : keys_ok ds).
  { split; rewrite Kf.
    - apply Forall_forall. intros k Hin. apply in_map_iff in Hin. destruct Hin as (j & <- & Hin). apply in_seq in Hin. destruct Hk as [_ Hk]. unfold int64_ok. lia.
    - apply FinFun.Injective_map_NoDup; [intros a b; apply Nat2Z.inj|apply seq_NoDup]. }
  assert (Hd : forall kd, In kd ds -> exists l, d_cm (snd kd) = kcm pair l /\ Z.of_nat (length l) = su_threshold su1).
  { intros [k d] Hin. destruct A as [_ A]. destruct (A k d Hin) as (_ & ts & _ & C & _). exact C. }
  destruct (new_transcript_ok (su_threshold su1) ds op K) as [t Et].
  - intros ->. cbn [length] in Ld. lia.
  - lia.
  - intros kd Hin. destruct (Hd kd Hin) as (l & E & L). unfold dl_pts. rewrite E, pts_kcm. split; [apply is_cm_kcm|exact L].
  - destruct op as [|p|p|l r|]; cbn [op_prev op_ready op_single negb] in *; try contradiction.
    + destruct pair; [|discriminate]. intros kd Hin. destruct (Hd kd Hin) as (l & E & L). unfold dl_pts. rewrite E. reflexivity.
    + destruct Op as [U L]. split; [exact U|lia].
    + destruct Op as (U & V & L). split; [exact U|]. split; [exact V|lia].
  - assert (No : op <> TOther) by (intros ->; exact Op). rewrite Et, bind_Ok. unfold round_new, open_dealings, go_make.
    destruct (Z.ltb_spec (su_receivers su1) 0); [lia|]. rewrite bind_Ok.
    destruct (shape_weights _ _ _ _ (new_transcript_shape _ _ _ _ K (Z.lt_le_incl _ _ (proj1 Ht)) No Et)) as (pts & cs & Lp & W). rewrite Ho, negb_involutive in W.
    assert (U : unwrap (tr_commitment t) = kcm pair pts).
    { destruct W as (_ & [(-> & -> & _)|(-> & _)] & _); [reflexivity|]. cbn [unwrap]. apply unwrap_kcm. }
    assert (Ec : c_curve (tr_commitment t) = Ok tt).
    { unfold c_curve, c_points. rewrite U. destruct pts as [|P pts]; [cbn [length] in Lp; lia|]. destruct pair; reflexivity. }
    rewrite Ec, bind_Ok. destruct (new_seed_total HX (cbor_cm (tr_commitment t)) from_bytes_dst) as (s2 & E2 & _).
    unfold seed_from_bytes. unfold seed_derive in E2. rewrite E2, bind_Ok. destruct (new_seed_total HX s2 opening_rng_dst) as (s3 & -> & L3). rewrite bind_Ok.
    rewrite seed_rng_ok by exact L3. rewrite bind_Ok.
    assert (Uc : exists c, c_clone (tr_commitment t) = Ok c) by (unfold c_clone; rewrite U; destruct pair; eexists; reflexivity). destruct Uc as [c Uc].
    eapply (ok3_bind (fun _ => True)).
    + eapply (ok3_bind (fun _ => True)); [|intros os _ _; rewrite Uc; exact I].
      eapply ok3_C; [apply (open_loop_corrupt_ok su1 pair ds op t s2 R1 H2 K No Ho Et A)|contradiction].
      intros i Hin. apply in_seq in Hin. lia.
    + intros r _ _. exact Q.
Qed.
Definition next_of (su su' : setup) : Prop := su_seed su' = su_seed su /\ su_round su' = su_round su + 1.
Lemma random_corrupt_ok su nc : su_ready su -> 2 * su_threshold su <= su_receivers su ->
  ok3 (fun r => next_of su (snd r)) (bad_round su) (round_random cbor_cm su (su_receivers su) nc).
Proof.
  intros R H2. pose proof R as (Hk & Ht & _). unfold round_random, go_make. destruct (Z.ltb_spec (su_receivers su) 0); [lia|]. rewrite bind_Ok.
  apply (round_run_corrupt_ok su TRandom true); [exact R|exact H2|rewrite repeat_length; lia| |reflexivity| |exact I].
  - intros s Hs. apply repeat_spec in Hs. subst s. reflexivity.
  - intros j s Hs. apply nth_error_In, repeat_spec in Hs. subst s. exact I.
Qed.
Lemma reshare_corrupt_ok su po mo masked nc : su_ready su -> 2 * su_threshold su <= su_receivers su -> rinv (Z.to_nat (su_receivers su)) (su_threshold su) true po mo masked ->
  ok3 (fun r => next_of su (snd r)) (bad_round su) (round_reshare_masked cbor_cm su masked (su_receivers su) nc).
Proof.
  intros R H2 I. pose proof R as (Hk & Ht & _). pose proof I as (Hth & l & Ec & _ & (Ll & _) & Eo). unfold round_reshare_masked. rewrite Eo.
  rewrite (mapM_total _ (fun o => SReshareMasked (oval o) (omask o))) by (intros o Hin; apply in_map_iff in Hin; destruct Hin as (i & <- & _); reflexivity).
  rewrite bind_Ok, Ec. cbn [kcm c_clone unwrap]. rewrite bind_Ok.
  apply (round_run_corrupt_ok su (TReshareMasked (CPedersen l)) false); [exact R|exact H2| | |reflexivity| |].
  - rewrite !map_length, seq_length. lia.
  - intros s Hs. rewrite map_map in Hs. apply in_map_iff in Hs. destruct Hs as (i & <- & _). reflexivity.
  - intros j s Hs. rewrite map_map in Hs. apply nth_seq_map in Hs. subst s. cbn [share_consistent].
    pose proof (rinv_check _ _ _ _ _ _ l (Z.of_nat j) I Ec) as Q. rewrite opening_at_eq in *. exact Q.
  - cbn [op_prev]. split; [reflexivity|]. cbn. lia.
Qed.
Lemma multiply_corrupt_ok su pl ml px mx masked unmasked nc : su_ready su -> 2 * su_threshold su <= su_receivers su ->
  rinv (Z.to_nat (su_receivers su)) (su_threshold su) true pl ml masked -> rinv (Z.to_nat (su_receivers su)) (su_threshold su) false px mx unmasked ->
  ok3 (fun r => next_of su (snd r)) (bad_round su) (round_multiply cbor_cm su masked unmasked (su_receivers su) nc).
Proof.
  intros R H2 I I'. pose proof R as (Hk & Ht & _). pose proof I as (Hth & l & Ec & _ & (Ll & _) & Eo). pose proof I' as (_ & l' & Ec' & _ & (Ll' & _) & Eo').
  unfold round_multiply. rewrite Eo, Eo'.
  rewrite (map_ext _ (fun i => OSimple (pev px (from_node_index (Z.of_nat i))))) by (intros i; apply opening_at_eq).
  rewrite (map_ext (fun i => opening_at pl ml true (Z.of_nat i)) (fun i => OPedersen (pev pl (from_node_index (Z.of_nat i))) (pev ml (from_node_index (Z.of_nat i)))))
    by (intros i; apply opening_at_eq).
  rewrite times_shares_ok, bind_Ok, Ec, Ec'. cbn [kcm c_clone unwrap]. rewrite !bind_Ok.
  apply (round_run_corrupt_ok su (TTimes (CSimple l') (CPedersen l)) true); [exact R|exact H2| | |reflexivity| |].
  - rewrite map_length, seq_length. lia.
  - intros s Hs. apply in_map_iff in Hs. destruct Hs as (i & <- & _). reflexivity.
  - intros j s Hs. apply nth_seq_map in Hs. subst s. cbn [share_consistent].
    pose proof (rinv_check _ _ _ _ _ _ l (Z.of_nat j) I Ec) as Q. pose proof (rinv_check _ _ _ _ _ _ l' (Z.of_nat j) I' Ec') as Q'.
    rewrite opening_at_eq in *. split; assumption.
  - cbn [op_prev]. split; [reflexivity|]. split; [reflexivity|]. cbn. lia.
Qed.

(** ** the whole setup *)
(** one of the seven rounds of a setup from [seed] may draw a zero corruption *)
Definition zero_corruption (seed : bytes) : Prop :=
  exists round s, 0 <= round < 7 /\ seed_derive seed (round_dst round) = Ok s /\ zero_draw s.
Lemma new_sig_setup_corrupt_ok n th nc seed : 0 < th -> 2 * th <= n -> n <= 2^63 -> blen seed = 32 ->
  ok3 (fun _ => True) ((exists su, new_setup n th seed = Ok su /\ mis su) \/ zero_corruption seed) (new_sig_setup cbor_cm n th nc seed).
Proof.
  intros Ht H2 Hn Ls. unfold new_sig_setup.
  pose proof (new_setup_ok n th seed ltac:(lia) Hn Ls) as Q. destruct (new_setup n th seed) as [su| | |] eqn:E0; cbn [ok3] in Q; try contradiction; [|exact I].
  rewrite bind_Ok. destruct Q as (R0 & N0 & T0).
  assert (S0 : su_seed su = seed /\ su_round su = 0).
  { unfold new_setup in E0. apply bind_inv in E0. destruct E0 as (rn & _ & E0). destruct (fill_uint8 rn (repeat 0 32)) as [ad rn1].
    apply bind_inv in E0. destruct E0 as (m & _ & E0). apply bind_inv in E0. destruct E0 as (ks & _ & E0). injection E0 as <-. split; reflexivity. }
  apply (ok3_C _ (mis su \/ zero_corruption seed)); [|intros [M|M]; [left; exists su; auto|right; exact M]]. clear E0.
  set (at_round := fun (j : Z) su' => su_eq su su' /\ su_seed su' = seed /\ su_round su' = j).
  assert (Hk : forall j su', 0 <= j < 7 -> at_round j su' -> su_ready su' /\ su_receivers su' = n /\ su_threshold su' = th /\ (bad_round su' -> mis su \/ zero_corruption seed)).
  { intros j su' Hj (Q & Sd & Rd). split; [apply (su_eq_ready _ _ Q R0)|]. pose proof Q as (T & N & _). rewrite T, N. split; [exact N0|]. split; [exact T0|].
    intros [M|(s & E & M)]; [left; apply (su_eq_mis _ _ Q M)|right; exists j, s; rewrite Sd, Rd in E; auto]. }
  assert (Hm : Z.of_nat (Z.to_nat n) <= 2^63) by lia.
  assert (Or : forall j su', 0 <= j < 7 -> at_round j su' ->
    ok3 (fun r => at_round (j + 1) (snd r) /\ exists po mo, rinv (Z.to_nat n) th true po mo (fst r)) (mis su \/ zero_corruption seed) (round_random cbor_cm su' n nc)).
  { intros j su' Hj Q. destruct (Hk _ _ Hj Q) as (R & N & T & M). rewrite <- N. eapply ok3_C; [eapply ok3_mono; [apply (random_corrupt_ok su' nc R); lia|]|exact M].
    intros [r su''] E [Sd Rd]. cbn [fst snd] in *. rewrite N in E. pose proof R as (K & _).
    destruct (random_inv HX cbor_cm su' n nc r su'' K Hn E) as (Q' & po & mo & Iv). rewrite N, T in Iv. rewrite N.
    destruct Q as (Q1 & Q2 & Q3). split; [|eauto]. split; [apply (su_eq_trans _ _ _ Q1 Q')|]. split; congruence. }
  assert (Os : forall j su' po mo m, 0 <= j < 7 -> at_round j su' -> rinv (Z.to_nat n) th true po mo m ->
    ok3 (fun r => at_round (j + 1) (snd r) /\ exists po mo, rinv (Z.to_nat n) th false po mo (fst r)) (mis su \/ zero_corruption seed) (round_reshare_masked cbor_cm su' m n nc)).
  { intros j su' po mo m Hj Q Iv. destruct (Hk _ _ Hj Q) as (R & N & T & M). pose proof Iv as Iv0. rewrite <- N, <- T in Iv0. pose proof N as N'. rewrite <- N'.
    eapply ok3_C; [eapply ok3_mono; [apply (reshare_corrupt_ok su' po mo m nc R); [lia|exact Iv0]|]|exact M].
    intros [r su''] E [Sd Rd]. cbn [fst snd] in *. rewrite N in E. pose proof R as (K & _).
    destruct (reshare_inv HX cbor_cm su' _ _ po mo m n nc r su'' K Hm Iv E) as (Q' & po' & mo' & Iv' & _). rewrite N, T in Iv'. rewrite N.
    destruct Q as (Q1 & Q2 & Q3). split; [|eauto]. split; [apply (su_eq_trans _ _ _ Q1 Q')|]. split; congruence. }
  assert (Om : forall j su' pl ml px mx m u, 0 <= j < 7 -> at_round j su' -> rinv (Z.to_nat n) th true pl ml m -> rinv (Z.to_nat n) th false px mx u ->
    ok3 (fun r => at_round (j + 1) (snd r)) (mis su \/ zero_corruption seed) (round_multiply cbor_cm su' m u n nc)).
  { intros j su' pl ml px mx m u Hj Q Iv Iv'. destruct (Hk _ _ Hj Q) as (R & N & T & M). pose proof Iv as Iv0. pose proof Iv' as Iv1. rewrite <- N, <- T in Iv0, Iv1.
    pose proof N as N'. rewrite <- N'.
    eapply ok3_C; [eapply ok3_mono; [apply (multiply_corrupt_ok su' pl ml px mx m u nc R); [lia|exact Iv0|exact Iv1]|]|exact M].
    intros [r su''] E [Sd Rd]. cbn [fst snd] in *. rewrite N in E. pose proof R as (K & _).
    destruct (multiply_inv HX cbor_cm su' _ _ pl ml px mx m u n nc r su'' K Hm Iv Iv' E) as (Q' & _).
    destruct Q as (Q1 & Q2 & Q3). split; [apply (su_eq_trans _ _ _ Q1 Q')|]. split; congruence. }
  assert (Q0 : at_round 0 su) by (split; [repeat split|exact S0]).
  apply (ok3_bind _ _ _ _ _ (Or 0 _ ltac:(lia) Q0)). intros [key0 su1] _ (Q1 & p1 & m1 & I1). cbn [fst snd] in *.
  apply (ok3_bind _ _ _ _ _ (Or 1 _ ltac:(lia) Q1)). intros [kap0 su2] _ (Q2 & p2 & m2 & I2). cbn [fst snd] in *.
  apply (ok3_bind _ _ _ _ _ (Or 2 _ ltac:(lia) Q2)). intros [lam su3] _ (Q3 & p3 & m3 & I3). cbn [fst snd] in *.
  apply (ok3_bind _ _ _ _ _ (Os 3 _ _ _ _ ltac:(lia) Q3 I1)). intros [key su4] _ (Q4 & p4 & m4 & I4). cbn [fst snd] in *.
  apply (ok3_bind _ _ _ _ _ (Os 4 _ _ _ _ ltac:(lia) Q4 I2)). intros [kap su5] _ (Q5 & p5 & m5 & I5). cbn [fst snd] in *.
  apply (ok3_bind _ _ _ _ _ (Om 5 _ _ _ _ _ _ _ ltac:(lia) Q5 I3 I4)). intros [xl su6] _ Q6. cbn [fst snd] in *.
  apply (ok3_bind _ _ _ _ _ (Om 6 _ _ _ _ _ _ _ ltac:(lia) Q6 I3 I5)). intros [kl su7] _ _. exact I.
Qed.
End Corrupt.
