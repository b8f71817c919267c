(** Invariants of protocol runs: what successful rounds produce. *)
From Coq Require Import ZArith Lia Bool String List Ring Field Sorted.
From Verif Require Import Base BaseFacts Zmod Fields ModelScalar ProofScalar ModelXmd ModelRo ProofRand SpecPoly ModelPoly ProofPoly
  ProofLagrange ProofSecrecy ModelGroup GroupFacts SpecGroup ModelCommit ProofCommit ModelZk ProofZk ModelMega ProofMega
  ModelDealing SpecDealing ProofDealing ProofTranscript ProofHonest ModelComplaint ModelKey ModelSign SpecSign ProofSign ModelProtocol.
Import ListNotations.
Open Scope Z_scope.

(** ** maps as ascending lists *)
Section Maps.
Context {A : Type}.
Definition asc (l : list (Z * A)) : Prop := StronglySorted Z.lt (map fst l).
Lemma asc_nodup l : asc l -> NoDup (map fst l).
Proof.
  unfold asc. intros H. induction H as [|a k H IH F]; constructor; [|assumption].
  intros Hin. rewrite Forall_forall in F. specialize (F _ Hin). lia.
Qed.
Lemma asc_cons k a l : asc ((k, a) :: l) <-> asc l /\ forall e, In e l -> k < fst e.
Proof.
  unfold asc. cbn [map fst]. split.
  - intros H. inversion H as [|? ? H1 H2]; subst. split; [assumption|]. intros e He. rewrite Forall_forall in H2. apply H2, in_map, He.
  - intros [H1 H2]. constructor; [assumption|]. apply Forall_forall. intros x Hx. apply in_map_iff in Hx. destruct Hx as (e & <- & He). apply H2, He.
Qed.
Lemma zset_in k (a : A) l : forall e, In e (zset k a l) -> e = (k, a) \/ In e l.
Proof.
  induction l as [|[i b] l IH]; cbn [zset]; intros e H.
  - destruct H as [<-|[]]. auto.
  - destruct (k <? i); [destruct H as [<-|H]; auto|]. destruct (k =? i); [destruct H as [<-|H]; cbn; auto|].
    destruct H as [<-|H]; [cbn; auto|]. destruct (IH _ H); cbn; auto.
Qed.
Lemma zset_asc k (a : A) l : asc l -> asc (zset k a l).
Proof.
  induction l as [|[i b] l IH]; cbn [zset]; intros H.
  - apply asc_cons. split; [exact H|]. intros e [].
  - pose proof H as H0. apply asc_cons in H0. destruct H0 as [H1 H2]. destruct (Z.ltb_spec k i).
    + apply asc_cons. split; [exact H|]. intros e [<-|He]; cbn [fst]; [lia|]. specialize (H2 _ He). lia.
    + destruct (Z.eqb_spec k i) as [->|].
      * apply asc_cons. auto.
      * apply asc_cons. split; [apply IH, H1|]. intros e He. apply zset_in in He. destruct He as [->|He]; cbn [fst]; [lia|apply H2, He].
Qed.
Lemma zset_keys k (a : A) l : asc l -> In k (map fst l) -> map fst (zset k a l) = map fst l.
Proof.
  induction l as [|[i b] l IH]; cbn [zset map fst]; intros H Hin; [destruct Hin|].
  apply asc_cons in H. destruct H as [H1 H2]. destruct (Z.ltb_spec k i).
  - exfalso. destruct Hin as [->|Hin]; [lia|]. apply in_map_iff in Hin. destruct Hin as (e & <- & He). specialize (H2 _ He). lia.
  - destruct (Z.eqb_spec k i) as [->|]; [reflexivity|]. cbn [map fst]. rewrite IH; [reflexivity|exact H1|]. destruct Hin as [->|Hin]; [lia|exact Hin].
Qed.
Lemma zlookup_in k l (a : A) : zlookup k l = Some a -> In (k, a) l.
Proof.
  induction l as [|[i b] l IH]; cbn [zlookup]; [discriminate|]. destruct (Z.eqb_spec k i) as [->|]; intros H; [injection H as ->; left; reflexivity|right; auto].
Qed.
Lemma zlookup_some k l (a : A) : NoDup (map fst l) -> In (k, a) l -> zlookup k l = Some a.
Proof.
  induction l as [|[i b] l IH]; cbn [zlookup map fst]; intros N; [intros []|]. inversion N as [|? ? N1 N2]; subst. intros [E|Hin].
  - injection E as -> ->. rewrite Z.eqb_refl. reflexivity.
  - destruct (Z.eqb_spec k i) as [->|]; [|auto]. exfalso. apply N1. apply (in_map fst) in Hin. exact Hin.
Qed.
Lemma zlookup_none k (l : list (Z * A)) : zlookup k l = None <-> ~ In k (map fst l).
Proof.
  induction l as [|[i b] l IH]; cbn [zlookup map fst]; [split; [intros _ []|reflexivity]|].
  destruct (Z.eqb_spec k i) as [->|N]; [split; [discriminate|intros H; exfalso; apply H; left; reflexivity]|].
  rewrite IH. cbn. split; intros H; [intros [E|E]; [congruence|auto]|auto].
Qed.

Lemma remove_nth_in n : forall (l : list (Z * A)) e, In e (remove_nth n l) -> In e l.
Proof.
  induction n as [|n IH]; intros [|a l] e; cbn [remove_nth]; intros H; try contradiction; [right; exact H|].
  destruct H as [<-|H]; [left; reflexivity|right; apply IH, H].
Qed.
Lemma remove_nth_asc n : forall (l : list (Z * A)), asc l -> asc (remove_nth n l).
Proof.
  induction n as [|n IH]; intros [|[i a] l] H; cbn [remove_nth]; try exact H.
  - apply asc_cons in H. apply H.
  - apply asc_cons in H. destruct H as [H1 H2]. apply asc_cons. split; [apply IH, H1|]. intros e He. apply H2, (remove_nth_in n), He.
Qed.
Lemma remove_nth_length n : forall (l : list (Z * A)), (n < length l)%nat -> length (remove_nth n l) = (length l - 1)%nat.
Proof. induction n as [|n IH]; intros [|a l] H; cbn [length remove_nth] in *; try lia. rewrite IH by lia. lia. Qed.
Lemma delete_loop_incl {X : Oracles} fuel : forall (ds : list (Z * A)) num rn r rn', asc ds -> delete_loop fuel ds num rn = Ok (r, rn') ->
  asc r /\ (forall e, In e r -> In e ds) /\ (Z.of_nat (length r) <= num) /\ (num <= Z.of_nat (length ds) -> num <= Z.of_nat (length r)).
Proof.
  induction fuel as [|fuel IH]; intros ds num rn r rn' Ha; cbn [delete_loop]; destruct (Z.leb_spec (Z.of_nat (length ds)) num) as [Hl|Hl]; intros H.
  - injection H as <- <-. auto.
  - discriminate.
  - injection H as <- <-. auto.
  - destruct ds as [|e0 ds0] eqn:E; [discriminate|]. rewrite <- E in *. destruct (rng_uint32 rn) as [u rn1].
    assert (L : (Z.to_nat (u mod Z.of_nat (length ds)) < length ds)%nat).
    { assert (0 < Z.of_nat (length ds)) by (rewrite E; cbn [length]; lia).
      pose proof (Z.mod_pos_bound u (Z.of_nat (length ds)) ltac:(lia)). lia. }
    apply IH in H; [|apply remove_nth_asc, Ha]. destruct H as (H1 & H2 & H3 & H4). split; [exact H1|]. split; [intros e He; apply (remove_nth_in _ _ _ (H2 e He))|].
    split; [exact H3|]. intros _. apply H4. rewrite remove_nth_length by exact L. lia.
Qed.
Lemma delete_down_incl {X : Oracles} (ds : list (Z * A)) num rn r rn' : asc ds -> delete_down ds num rn = Ok (r, rn') ->
  asc r /\ (forall e, In e r -> In e ds) /\ Z.of_nat (length r) <= num /\ (num <= Z.of_nat (length ds) -> num <= Z.of_nat (length r)).
Proof. apply delete_loop_incl. Qed.
Lemma delete_loop_in {X : Oracles} fuel : forall (ds : list (Z * A)) num rn r rn', delete_loop fuel ds num rn = Ok (r, rn') -> forall e, In e r -> In e ds.
Proof.
  induction fuel as [|fuel IH]; intros ds num rn r rn'; cbn [delete_loop]; destruct (Z.of_nat (length ds) <=? num); intros H.
  - injection H as <- <-. auto.
  - discriminate.
  - injection H as <- <-. auto.
  - destruct ds as [|e0 ds0] eqn:E; [discriminate|]. rewrite <- E in *. destruct (rng_uint32 rn) as [u rn1].
    intros e He. apply (remove_nth_in _ _ _ (IH _ _ _ _ _ H e He)).
Qed.
End Maps.

Section Protocol.
Context {X : Oracles} (HX : oracles_ok X) {GO : Grp} {GL : GrpLaws GO}.
Context (cbor_cm : commitment -> bytes).

(** ** sharings *)
Definition kcm (pair : bool) (l : list G) : commitment := if pair then CPedersen l else CSimple l.
Definition kev (pair : bool) (po mo : poly) (x : Fq) : G := if pair then pedersen (pev po x) (pev mo x) else mul_by_g (pev po x).
Definition sharing (th : Z) (pair : bool) (l : list G) (po mo : poly) : Prop :=
  length l = Z.to_nat th /\ (length po <= Z.to_nat th)%nat /\ (length mo <= Z.to_nat th)%nat /\ forall x, gev l x = kev pair po mo x.

Lemma pts_kcm pair l : pts_of (kcm pair l) = l. Proof. destruct pair; reflexivity. Qed.
Lemma unwrap_kcm pair l : unwrap (kcm pair l) = kcm pair l. Proof. destruct pair; reflexivity. Qed.
Lemma is_cm_kcm pair l : is_cm (kcm pair l). Proof. destruct pair; [right|left]; exists l; reflexivity. Qed.
Lemma pedersen_inj_l a b m : pedersen a m = pedersen b m -> a = b.
Proof.
  unfold pedersen, mul_points. intros H. rewrite !(gadd_comm (smul _ genG)) in H. apply gadd_cancel_l in H. apply mul_by_g_inj. exact H.
Qed.
Lemma opening_at_eq po mo pair i :
  opening_at po mo pair i = if pair then OPedersen (pev po (from_node_index i)) (pev mo (from_node_index i)) else OSimple (pev po (from_node_index i)).
Proof. unfold opening_at. rewrite !pev_spec, <- node_x_eq. reflexivity. Qed.

(** an opening that checks, with the right mask, is the right one *)
Lemma check_exact c pair l th po mo i o : unwrap c = kcm pair l -> sharing th pair l po mo -> c_check_opening c i o = Ok true ->
  (pair = true -> omask o = pev mo (from_node_index i)) -> o = opening_at po mo pair i.
Proof.
  intros U (_ & _ & _ & E) K M. rewrite opening_at_eq. specialize (E (from_node_index i)). destruct pair; cbn [kcm kev] in *.
  - destruct (check_true_pedersen _ _ _ _ U K) as (Eo & _ & Eg). rewrite Eo. rewrite (M eq_refl) in *. f_equal.
    rewrite E in Eg. apply pedersen_inj_l in Eg. symmetry. exact Eg.
  - destruct (check_true_simple _ _ _ _ U K) as (Eo & _ & Eg). rewrite Eo. f_equal. rewrite E in Eg. apply mul_by_g_inj in Eg. symmetry. exact Eg.
Qed.
Lemma check_opening_at c pair l th po mo i : unwrap c = kcm pair l -> l <> [] -> sharing th pair l po mo ->
  c_check_opening c i (opening_at po mo pair i) = Ok true.
Proof.
  intros U N (_ & _ & _ & E). rewrite opening_at_eq. destruct pair; cbn [kcm kev] in *.
  - apply (check_intro_pedersen _ _ l); [exact U|exact N|apply E].
  - apply (check_intro_simple _ _ l); [exact U|exact N|apply E].
Qed.

(** ** single dealings *)
Definition good_dealing (su : setup) (pair : bool) (k : Z) (d : dealing) (po mo : poly) : Prop :=
  (exists l, d_cm d = kcm pair l /\ sharing (su_threshold su) pair l po mo) /\
  (pair = true -> (exists e p pf ct, d_ct d = MPair e p pf ct) /\
     forall i sk o, nth_error (su_pk su) i = Some (mul_by_g sk) ->
     m_decrypt (d_ct d) (su_ad su) k (Z.of_nat i) sk (mul_by_g sk) = Ok o -> omask o = pev mo (from_node_index (Z.of_nat i))).

Lemma m_decrypt_and_check_inv m c ad d i sk pk o : m_decrypt_and_check m c ad d i sk pk = Ok o ->
  m_decrypt m ad d i sk pk = Ok o /\ c_check_opening c i o = Ok true.
Proof.
  unfold m_decrypt_and_check. intros H. apply bind_inv in H. destruct H as (o' & E & H). apply bind_inv in H. destruct H as ([|] & K & H); [|discriminate].
  injection H as ->. auto.
Qed.
Lemma good_open su pair k d po mo i sk o : good_dealing su pair k d po mo -> nth_error (su_pk su) i = Some (mul_by_g sk) ->
  m_decrypt_and_check (d_ct d) (d_cm d) (su_ad su) k (Z.of_nat i) sk (mul_by_g sk) = Ok o -> o = opening_at po mo pair (Z.of_nat i).
Proof.
  intros ((l & U & S) & M) Hi H. apply m_decrypt_and_check_inv in H. destruct H as [E K].
  apply (check_exact (d_cm d) pair l (su_threshold su)); [rewrite U; apply unwrap_kcm|exact S|exact K|].
  intros Ep. apply (proj2 (M Ep) i sk); assumption.
Qed.

Definition sh_pair (s : shares) : bool := match s with SRandom | STimes _ _ _ => true | _ => false end.
(** the secret a share deals *)
Definition sh_secret (s : shares) : option Fq :=
  match s with SReshareUnmasked s | SReshareMasked s _ => Some s | STimes l r _ => Some (fmul l r) | _ => None end.

Lemma sharing_single th po l : length l = Z.to_nat th -> length po = Z.to_nat th -> commits l po -> sharing th false l po [].
Proof.
  intros L1 L2 C. split; [exact L1|]. split; [lia|]. split; [cbn [length]; lia|]. intros x. cbn [kev]. unfold mul_by_g. apply (commits_gev _ _ _ C).
Qed.
Lemma sharing_pair th po mo l : length l = Z.to_nat th -> length po = Z.to_nat th -> length mo = Z.to_nat th -> commits2 l po mo -> sharing th true l po mo.
Proof. intros L1 L2 L3 C. split; [exact L1|]. split; [lia|]. split; [lia|]. intros x. cbn [kev]. apply (commits2_gev _ _ _ _ C). Qed.

Lemma body_single_good su po k d ct cm pf : d = mkdealing ct cm pf -> length po = Z.to_nat (su_threshold su) ->
  body_single po (su_threshold su) (su_pk su) k (su_ad su) ct cm -> good_dealing su false k d po [].
Proof.
  intros -> Lp (e & p & pf' & c & l & -> & -> & L & C & _). split; [|discriminate]. exists l. split; [reflexivity|]. apply sharing_single; assumption.
Qed.
Lemma body_pair_good su po mo k d ct cm pf : d = mkdealing ct cm pf -> length po = Z.to_nat (su_threshold su) -> length mo = Z.to_nat (su_threshold su) ->
  body_pair po mo (su_threshold su) (su_pk su) k (su_ad su) ct cm -> good_dealing su true k d po mo.
Proof.
  intros -> Lp Lm (e & p & pf' & c & l & -> & -> & L & C & _ & _ & D). split; [exists l; split; [reflexivity|apply sharing_pair; assumption]|].
  intros _. split; [cbn [d_ct]; eauto|]. intros i sk o Hi H. cbn [d_ct] in H. rewrite (D i sk Hi) in H. injection H as <-. cbn [omask]. rewrite pev_spec, <- node_x_eq. reflexivity.
Qed.
Lemma good_dealt su s k d : dealt s (su_threshold su) (su_pk su) k (su_ad su) d ->
  exists po mo, good_dealing su (sh_pair s) k d po mo /\ forall x, sh_secret s = Some x -> pev po fzero = x.
Proof.
  destruct d as [ct cm pf], s as [|s|s m|l r rm|]; cbn [dealt sh_pair sh_secret d_ct d_cm d_proof].
  - intros (po & mo & L1 & L2 & B & _). exists po, mo. split; [|discriminate]. apply (body_pair_good _ _ _ _ _ ct cm pf); auto.
  - intros (po & L1 & E & B & _). exists po, []. split; [apply (body_single_good _ _ _ _ ct cm pf); auto|]. intros x H. injection H as <-. rewrite pev_0. exact E.
  - intros (po & z & L1 & E & B & _). exists po, []. split; [apply (body_single_good _ _ _ _ ct cm pf); auto|]. intros x H. injection H as <-. rewrite pev_0. exact E.
  - intros (po & mo & z & L1 & L2 & E & B & _). exists po, mo. split; [apply (body_pair_good _ _ _ _ _ ct cm pf); auto|]. intros x H. injection H as <-. rewrite pev_0. exact E.
  - contradiction.
Qed.

(** corruption of ciphertexts never leads to a wrong accepted opening *)
Lemma update_nth_snd n (f : Fq * Fq -> Fq * Fq) : (forall c, snd (f c) = snd c) -> forall l, map snd (update_nth n f l) = map snd l.
Proof. intros Hf. induction n as [|n IH]; intros [|a l]; cbn [update_nth map]; rewrite ?Hf, ?IH; reflexivity. Qed.
Lemma update_all_snd ts (f : Fq * Fq -> Fq * Fq) : (forall c, snd (f c) = snd c) -> forall l r, update_all ts f l = Ok r -> map snd r = map snd l.
Proof.
  intros Hf. induction ts as [|t ts IH]; intros l r; cbn [update_all]; intros H; [injection H as <-; reflexivity|].
  apply bind_inv in H. destruct H as (a & _ & H). rewrite (IH _ _ H). apply update_nth_snd, Hf.
Qed.
Lemma decrypt_same_masks e p pf ct ct' ad d i sk pk o : map snd ct' = map snd ct -> m_decrypt (MPair e p pf ct') ad d i sk pk = Ok o ->
  exists o0, m_decrypt (MPair e p pf ct) ad d i sk pk = Ok o0 /\ omask o0 = omask o.
Proof.
  intros E H. unfold m_decrypt in *. cbn [m_verify_pop] in *. apply bind_inv in H. destruct H as ([] & V & H). rewrite V, bind_Ok.
  apply bind_inv in H. destruct H as (s & D & H). injection H as <-. unfold decrypt_pair_ss in *.
  assert (L : length ct' = length ct) by (rewrite <- (map_length snd ct'), <- (map_length snd ct), E; reflexivity). rewrite L in D.
  destruct (_ <=? i); [discriminate|]. apply bind_inv in D. destruct D as (hm & -> & D). rewrite bind_Ok.
  apply bind_inv in D. destruct D as (c' & Ic & D). apply bind_inv in D. destruct D as (h0 & -> & D). apply bind_inv in D. destruct D as (h1 & -> & D).
  injection D as <-. unfold index in *. destruct (i <? 0); [discriminate|]. unfold nth_or_panic in *.
  destruct (nth_error ct' (Z.to_nat i)) as [c''|] eqn:N; [|discriminate]. injection Ic as ->.
  pose proof (map_nth_error snd _ _ N) as N'. rewrite E in N'. rewrite nth_error_map in N'.
  destruct (nth_error ct (Z.to_nat i)) as [c|]; [|discriminate]. cbn [option_map] in N'. injection N' as N'. rewrite !bind_Ok.
  eexists. split; [reflexivity|]. cbn [omask snd]. rewrite N'. reflexivity.
Qed.
Lemma good_corrupt su pair k d po mo ts seed bad : good_dealing su pair k d po mo -> corrupt_dealing d ts seed = Ok bad -> good_dealing su pair k bad po mo.
Proof.
  intros ((l & U & S) & M) H. unfold corrupt_dealing in H. apply bind_inv in H. destruct H as ([] & _ & H). apply bind_inv in H. destruct H as (rn & _ & H).
  apply bind_inv in H. destruct H as (r & _ & H). cbv zeta in H.
  destruct (d_ct d) as [e p pf ct|e p pf ct|] eqn:Ec.
  - apply bind_inv in H. destruct H as (ct' & Eu & H). injection H as <-. split; [exists l; auto|]. intros Ep. destruct (M Ep) as [(e1 & p1 & pf1 & c1 & Q) _]. discriminate Q.
  - apply bind_inv in H. destruct H as (ct' & Eu & H). injection H as <-. split; [exists l; auto|]. cbn [d_ct]. intros Ep. split; [eauto|]. intros i sk o Hi D.
    apply update_all_snd in Eu; [|reflexivity]. destruct (decrypt_same_masks _ _ _ _ _ _ _ _ _ _ _ Eu D) as (o0 & D0 & <-). apply (proj2 (M Ep) i sk); assumption.
  - injection H as <-. split; [exists l; auto|]. intros Ep. destruct (M Ep) as [(e1 & p1 & pf1 & c1 & Q) _]. discriminate Q.
Qed.
(** ** CreateDealings *)
Lemma mapM_unit {A} (f : A -> res unit) l r : mapM f l = Ok r -> forall a, In a l -> f a = Ok tt.
Proof.
  revert r. induction l as [|a l IH]; intros r H b; [intros []|]. cbn [mapM] in H. apply bind_inv in H. destruct H as ([] & E & H).
  apply bind_inv in H. destruct H as (bs & E' & _). intros [<-|Hin]; [exact E|apply (IH _ E' _ Hin)].
Qed.
Lemma deal_loop_spec su op : forall shs i rn ds rn', deal_loop su op i shs rn = Ok (ds, rn') ->
  asc ds /\ forall k d, In (k, d) ds -> i <= k < i + Z.of_nat (length shs) /\
    exists s seed, nth_error shs (Z.to_nat (k - i)) = Some s /\ new_dealing s seed (su_threshold su) (su_pk su) k (su_ad su) = Ok d /\
      publicly_verify d op (su_threshold su) k (su_receivers su) (su_ad su) = Ok tt.
Proof.
  induction shs as [|s shs IH]; intros i rn ds rn' H; cbn [deal_loop] in H.
  - injection H as <- <-. split; [constructor|]. intros k d [].
  - apply bind_inv in H. destruct H as ([sd rn1] & _ & H). apply bind_inv in H. destruct H as (d & Ed & H).
    apply bind_inv in H. destruct H as ([] & Ep & H). apply bind_inv in H. destruct H as (ri & _ & H). apply bind_inv in H. destruct H as (us & _ & H).
    apply bind_inv in H. destruct H as ([r rn2] & Er & H). injection H as <- <-. apply IH in Er. destruct Er as [Ha Hr].
    assert (Hr' : forall k d', In (k, d') r -> i + 1 <= k < i + Z.of_nat (length (s :: shs)) /\
      exists s0 seed, nth_error (s :: shs) (Z.to_nat (k - i)) = Some s0 /\ new_dealing s0 seed (su_threshold su) (su_pk su) k (su_ad su) = Ok d' /\
      publicly_verify d' op (su_threshold su) k (su_receivers su) (su_ad su) = Ok tt).
    { intros k d' Hin. destruct (Hr k d' Hin) as (Hk & s0 & seed & E0 & E1). cbn [length]. split; [lia|]. exists s0, seed.
      replace (Z.to_nat (k - i)) with (S (Z.to_nat (k - (i + 1)))) by lia. auto. }
    assert (Hd : publicly_verify d op (su_threshold su) i (su_receivers su) (su_ad su) = Ok tt).
    { unfold test_public in Ep. apply bind_inv in Ep. destruct Ep as ([] & Ep & _). unfold must_pass in Ep.
      destruct (publicly_verify d op (su_threshold su) i (su_receivers su) (su_ad su)) as [[]| | |]; try discriminate. reflexivity. }
    destruct ri as [|r0 ri].
    + split; [exact Ha|]. intros k d' Hin. destruct (Hr' k d' Hin) as [Hk Hs]. split; [lia|exact Hs].
    + split.
      * apply asc_cons. split; [exact Ha|]. intros [k d'] Hin. destruct (Hr' k d' Hin) as [Hk _]. cbn [fst]. lia.
      * intros k d' [E|Hin].
        -- injection E as <- <-. cbn [length]. split; [lia|]. exists s, sd. rewrite Z.sub_diag. auto.
        -- destruct (Hr' k d' Hin) as [Hk Hs]. split; [lia|exact Hs].
Qed.
Lemma damage_loop_in fuel : forall ds acc num rn r rn', damage_loop fuel ds acc num rn = Ok (r, rn') ->
  (forall e, In e acc -> In e ds) -> forall e, In e r -> In e ds.
Proof.
  induction fuel as [|fuel IH]; intros ds acc num rn r rn' H Ha; cbn [damage_loop] in H; destruct (num <=? _); try (injection H as <- <-; exact Ha); try discriminate.
  destruct ds as [|d0 ds0] eqn:E; [discriminate|]. rewrite <- E in *. destruct (rng_uint32 rn) as [u rn1].
  apply bind_inv in H. destruct H as (e & En & H). apply (IH _ _ _ _ _ _ H). intros e' He. apply zset_in in He. destruct He as [->|He]; [|apply Ha, He].
  unfold nth_or_panic in En. destruct (nth_error ds _) as [e0|] eqn:N; [|discriminate]. injection En as ->. apply nth_error_In in N. destruct e. exact N.
Qed.

(** what holds of every entry of the map of dealings, corrupted or not *)
Definition made (su : setup) (shs : list shares) (ds : list (Z * dealing)) : Prop :=
  asc ds /\ forall k d, In (k, d) ds -> 0 <= k < Z.of_nat (length shs) /\
    exists s po mo, nth_error shs (Z.to_nat k) = Some s /\ good_dealing su (sh_pair s) k d po mo /\
      forall x, sh_secret s = Some x -> pev po fzero = x.
Lemma made_incl su shs ds ds' : made su shs ds -> asc ds' -> (forall e, In e ds' -> In e ds) -> made su shs ds'.
Proof. intros [_ H] Ha Hi. split; [exact Ha|]. intros k d Hin. apply H, Hi, Hin. Qed.
Lemma made_deal su op shs rn ds rn' : ~ In SOther shs -> deal_loop su op 0 shs rn = Ok (ds, rn') -> made su shs ds.
Proof.
  intros Hs H. apply deal_loop_spec in H. destruct H as [Ha H]. split; [exact Ha|]. intros k d Hin. destruct (H k d Hin) as (Hk & s & seed & E & Ed & _).
  split; [lia|]. rewrite Z.sub_0_r in E. exists s. apply (new_dealing_inv HX) in Ed; [|intros ->; apply Hs; apply nth_error_In in E; exact E].
  destruct Ed as [_ Ed]. apply good_dealt in Ed. destruct Ed as (po & mo & Hg & Hx). exists po, mo. auto.
Qed.
Lemma corrupt_loop_made su shs : forall todo ds rn r, made su shs ds -> (forall e, In e todo -> In e ds) -> asc todo ->
  corrupt_loop su todo ds rn = Ok r -> made su shs r /\ map fst r = map fst ds.
Proof.
  induction todo as [|[k d] todo IH]; intros ds rn r M Hi Ha H; cbn [corrupt_loop] in H; [injection H as <-; auto|].
  destruct (rng_uint32 rn) as [u rn1]. destruct (_ =? 0); [discriminate|].
  apply bind_inv in H. destruct H as ([ts rn2] & _ & H). apply bind_inv in H. destruct H as ([sd rn3] & _ & H).
  apply bind_inv in H. destruct H as (bad & Eb & H). apply bind_inv in H. destruct H as ([] & _ & H).
  assert (Hin : In (k, d) ds) by (apply Hi; left; reflexivity).
  apply asc_cons in Ha. destruct Ha as [Ha Hlt].
  apply IH in H.
  - destruct H as [H1 H2]. split; [exact H1|]. rewrite H2. apply zset_keys; [apply M|]. apply (in_map fst) in Hin. exact Hin.
  - split; [apply zset_asc, M|]. intros k' d' Hin'. apply zset_in in Hin'. destruct Hin' as [E|Hin']; [|apply M, Hin'].
    injection E as -> ->. destruct (proj2 M k d Hin) as (Hk & s & po & mo & E & Hg & Hx). split; [exact Hk|]. exists s, po, mo.
    split; [exact E|]. split; [|exact Hx]. apply (good_corrupt _ _ _ _ _ _ _ _ _ Hg Eb).
  - intros [k' d'] Hin'. pose proof (Hlt _ Hin') as Hne. cbn [fst] in Hne. pose proof (Hi _ (or_intror Hin')) as Hd.
    clear - Hd Hne. induction ds as [|[i b] ds IH]; [destruct Hd|]. cbn [zset]. destruct (k <? i); [right; exact Hd|].
    destruct (Z.eqb_spec k i) as [->|].
    + destruct Hd as [E|Hd]; [injection E as -> _; lia|right; exact Hd].
    + destruct Hd as [E|Hd]; [left; exact E|right; apply IH, Hd].
  - exact Ha.
Qed.
Lemma damage_loop_asc fuel : forall ds acc num rn r rn', damage_loop fuel ds acc num rn = Ok (r, rn') -> asc acc -> asc r.
Proof.
  induction fuel as [|fuel IH]; intros ds acc num rn r rn' H Ha; cbn [damage_loop] in H; destruct (num <=? _); try (injection H as <- <-; exact Ha); try discriminate.
  destruct ds as [|d0 ds0] eqn:E; [discriminate|]. rewrite <- E in *. destruct (rng_uint32 rn) as [u rn1].
  apply bind_inv in H. destruct H as (e & En & H). apply (IH _ _ _ _ _ _ H). apply zset_asc, Ha.
Qed.
Lemma create_dealings_made su shs dealers nc op seed ds : ~ In SOther shs -> create_dealings su shs dealers nc op seed = Ok ds -> made su shs ds.
Proof.
  intros Hs H. unfold create_dealings in H. apply bind_inv in H. destruct H as (rn & _ & H). apply bind_inv in H. destruct H as ([ds1 rn1] & E1 & H).
  apply bind_inv in H. destruct H as ([ds2 rn2] & E2 & H). apply bind_inv in H. destruct H as ([bad rn3] & E3 & H).
  apply (made_deal _ _ _ _ _ _ Hs) in E1. pose proof E1 as [A1 _]. destruct (delete_down_incl _ _ _ _ _ A1 E2) as (A2 & I2 & _).
  assert (M2 : made su shs ds2) by (apply (made_incl _ _ ds1); assumption).
  apply (corrupt_loop_made su shs) in H; [apply H|exact M2| |].
  - apply (damage_loop_in _ _ _ _ _ _ _ E3). intros e [].
  - apply (damage_loop_asc _ _ _ _ _ _ _ E3). constructor.
Qed.
(** ** combination *)
Definition pm_val (cs : list Fq) (pm : list (poly * poly)) (x : Fq) : Fq := fwsum cs (map (fun e => pev (fst e) x) pm).
Definition pm_mask (cs : list Fq) (pm : list (poly * poly)) (x : Fq) : Fq := fwsum cs (map (fun e => pev (snd e) x) pm).
Lemma fwsum_isp {A} n (f : A -> poly) l : (forall a, In a l -> (length (f a) <= n)%nat) -> forall cs, isp n (fun x => fwsum cs (map (fun a => pev (f a) x) l)).
Proof.
  induction l as [|a l IH]; intros H [|c cs]; cbn [map fwsum]; try apply isp_zero.
  apply (isp_add n (fun x => fmul c (pev (f a) x)) (fun x => fwsum cs (map (fun a => pev (f a) x) l))).
  - apply isp_scale, isp_pev, H. left. reflexivity.
  - apply IH. intros b Hb. apply H. right. exact Hb.
Qed.
Lemma wsum_kev pair cs (pm : list (poly * poly)) x : wsum cs (map (fun e => kev pair (fst e) (snd e) x) pm) =
  if pair then pedersen (pm_val cs pm x) (pm_mask cs pm x) else mul_by_g (pm_val cs pm x).
Proof.
  destruct pair; unfold kev, pm_val, pm_mask.
  - apply (wsum_pedersen (fun e : poly * poly => pev (fst e) x) (fun e => pev (snd e) x)).
  - apply (wsum_scal (fun e : poly * poly => pev (fst e) x)).
Qed.
Lemma wsum_ones (l : list G) : wsum (repeat fone (length l)) l = gsum l.
Proof. induction l as [|P l IH]; cbn [length repeat wsum]; [reflexivity|]. rewrite IH, smul_1. reflexivity. Qed.

(** the weights with which a transcript combines its dealings *)
Definition weights (pair : bool) (tc : commitment) (pts : list G) (ds : list (Z * dealing)) (cs : list Fq) : Prop :=
  length cs = length ds /\
  (tc = CSum (CPedersen pts) /\ pair = true /\ cs = repeat fone (length ds) \/
   tc = CInterp (kcm pair pts) /\ lagrange_at_zero (map fst ds) = Ok cs /\ cs <> []) /\
  forall x, gev pts x = wsum cs (map (fun kd => gev (dl_pts kd) x) ds).
Lemma shape_weights th ds op t : transcript_shape th ds op t ->
  exists pts cs, length pts = Z.to_nat th /\ weights (negb (op_single op)) (tr_commitment t) pts ds cs.
Proof.
  intros (pts & Lp & Sh). exists pts. destruct op as [|p|p|l r|]; cbn [op_single negb]; [| | | |contradiction].
  - destruct Sh as [E S]. exists (repeat fone (length ds)). split; [exact Lp|]. split; [apply repeat_length|]. split; [left; auto|].
    intros x. rewrite (S x). rewrite <- wsum_ones, map_length. reflexivity.
  - destruct Sh as [E (cs & Ec & L & N & W)]. exists cs. split; [exact Lp|]. split; [exact L|]. split; [right; auto|exact W].
  - destruct Sh as [E (cs & Ec & L & N & W)]. exists cs. split; [exact Lp|]. split; [exact L|]. split; [right; auto|exact W].
  - destruct Sh as [E (cs & Ec & L & N & W)]. exists cs. split; [exact Lp|]. split; [exact L|]. split; [right; auto|exact W].
Qed.
Lemma fadd_one_mul (a b c : Fq) : fadd (fadd a b) c = fadd a (fadd (fmul fone b) c).
Proof. ring. Qed.
Lemma sum_pedersen_exact i pm : forall v m, sum_pedersen (map (fun e : poly * poly => opening_at (fst e) (snd e) true i) pm) v m =
  Ok (OPedersen (fadd v (pm_val (repeat fone (length pm)) pm (from_node_index i))) (fadd m (pm_mask (repeat fone (length pm)) pm (from_node_index i)))).
Proof.
  induction pm as [|e pm IH]; intros v m; cbn [map sum_pedersen length repeat].
  - unfold pm_val, pm_mask. cbn. do 2 f_equal; ring.
  - rewrite opening_at_eq. cbn [sum_pedersen]. rewrite IH. unfold pm_val, pm_mask. cbn [map fwsum]. do 2 f_equal; apply fadd_one_mul.
Qed.
Lemma combine_exact pair tc pts ds cs pm i o : weights pair tc pts ds cs -> length pm = length ds ->
  combine_openings (map fst ds) (map (fun e : poly * poly => opening_at (fst e) (snd e) pair i) pm) tc i = Ok o ->
  o = if pair then OPedersen (pm_val cs pm (from_node_index i)) (pm_mask cs pm (from_node_index i)) else OSimple (pm_val cs pm (from_node_index i)).
Proof.
  intros (Lc & K & _) Lp H. unfold combine_openings in H. apply bind_inv in H. destruct H as (o' & H & R). apply return_ok in R. destruct R as [-> _].
  destruct K as [(-> & -> & ->)|(-> & El & Nc)].
  - rewrite <- Lp in *. rewrite sum_pedersen_exact in H. injection H as <-. f_equal; ring.
  - destruct pair; cbn [kcm] in H.
    + destruct (zip_pedersen_ok (map fst ds) (map (fun e : poly * poly => opening_at (fst e) (snd e) true i) pm)) as (vs & Ez & V1 & V2 & V3).
      { rewrite !map_length. exact Lp. }
      { intros o He. apply in_map_iff in He. destruct He as (e & <- & _). reflexivity. }
      rewrite Ez, bind_Ok, V1, V2, V3, El, bind_Ok in H.
      rewrite !interpolate_scalar_wsum in H by (rewrite ?map_length; try exact Nc; lia). rewrite !bind_Ok in H. injection H as <-.
      unfold pm_val, pm_mask. f_equal; rewrite map_map; f_equal; apply map_ext; intros e; cbn [oval omask]; rewrite pev_spec, <- node_x_eq; reflexivity.
    + destruct (zip_simple_ok (map fst ds) (map (fun e : poly * poly => opening_at (fst e) (snd e) false i) pm)) as (vs & Ez & V1 & V2).
      { rewrite !map_length. exact Lp. }
      { intros o He. apply in_map_iff in He. destruct He as (e & <- & _). reflexivity. }
      rewrite Ez, bind_Ok, V1, V2, El, bind_Ok in H.
      rewrite !interpolate_scalar_wsum in H by (rewrite ?map_length; try exact Nc; lia). rewrite !bind_Ok in H. injection H as <-.
      unfold pm_val. f_equal; rewrite map_map; f_equal; apply map_ext; intros e; cbn [oval omask]; rewrite pev_spec, <- node_x_eq; reflexivity.
Qed.

(** ** reconstruction from exact openings *)
Lemma lagrange_nodup v ks cs : lagrange_at_value v ks = Ok cs -> ks <> [] /\ NoDup ks.
Proof.
  intros H. split; [intros ->; discriminate|]. destruct (ListDec.NoDup_dec Z.eq_dec ks) as [N|N]; [exact N|].
  destruct ks as [|a [|b ks]]; [constructor|exfalso; apply N; constructor; [intros []|constructor]|].
  rewrite lagrange_dup_err in H; [discriminate|cbn; lia|exact N].
Qed.
Lemma reconstruct_exact su pair k d po mo os ix o : good_dealing su pair k d po mo ->
  (forall j e, In (j, e) os -> int64_ok j /\ e = opening_at po mo pair j) -> reconstruct_share d os ix = Ok o -> o = opening_at po mo pair ix.
Proof.
  intros ((l & U & S) & _) He H. pose proof (reconstruct_sound _ _ _ _ H) as K.
  apply (check_exact (d_cm d) pair l (su_threshold su)); [rewrite U; apply unwrap_kcm|exact S|exact K|]. intros ->. cbn [kcm] in U.
  unfold reconstruct_share in H. apply bind_inv in H. destruct H as (n & En & H). apply c_len_ok in En. destruct En as [_ En].
  rewrite U in En. cbn in En. destruct (Z.ltb_spec (Z.of_nat (length os)) n) as [|Hl]; [discriminate|].
  apply bind_inv in H. destruct H as ([] & _ & H). cbv zeta in H. apply bind_inv in H. destruct H as (o' & H & R). apply return_ok in R. destruct R as [-> _].
  rewrite U in H. rewrite collect_pedersen_ok in H by (intros [j e] Hin; destruct (He j e Hin) as [_ ->]; reflexivity).
  rewrite bind_Ok, !map_map in H. cbn [fst snd] in H. apply bind_inv in H. destruct H as (cs & Ec & H).
  pose proof (lagrange_nodup _ _ _ Ec) as [Ne Nd].
  assert (F : Forall int64_ok (map (fun x : Z * opening => fst x) os)).
  { apply Forall_forall. intros j Hj. apply in_map_iff in Hj. destruct Hj as ([j' e] & <- & Hin). apply (He _ _ Hin). }
  destruct (lagrange_ok (from_node_index ix) _ F Nd Ne) as (cs' & Ec' & Lc & Nc). assert (cs' = cs) as -> by congruence. rewrite map_length in Lc.
  rewrite !interpolate_scalar_wsum in H by (rewrite ?map_length; auto). rewrite !bind_Ok in H. injection H as <-. cbn [omask].
  rewrite (map_ext_in _ (fun x => pev mo (from_node_index (fst x)))).
  - rewrite <- (map_map (fun x : Z * opening => fst x) (fun j => pev mo (from_node_index j))).
    apply (lagrange_fwsum (from_node_index ix) _ (pev mo) cs F Nd Ec). apply isp_pev. rewrite map_length. destruct S as (L1 & L2 & L3 & _). lia.
  - intros [j e] Hin. destruct (He j e Hin) as [_ ->]. rewrite opening_at_eq. reflexivity.
Qed.
(** ** opening of all dealings *)
Definition su_keys (su : setup) : Prop := su_pk su = map mul_by_g (su_sk su) /\ Z.of_nat (length (su_sk su)) <= 2^63.
Definition opened (su : setup) (k : Z) (d : dealing) (je : Z * opening) : Prop :=
  exists i sk, nth_error (su_sk su) i = Some sk /\ nth_error (su_pk su) i = Some (mul_by_g sk) /\ fst je = Z.of_nat i /\
    m_decrypt_and_check (d_ct d) (d_cm d) (su_ad su) k (Z.of_nat i) sk (mul_by_g sk) = Ok (snd je).
Lemma keys_pk su i sk : su_keys su -> nth_error (su_sk su) i = Some sk -> nth_error (su_pk su) i = Some (mul_by_g sk).
Proof. intros [-> _] H. apply map_nth_error, H. Qed.
Lemma nth_or_panic_inv {A} (l : list A) i a : nth_or_panic l i = Ok a -> nth_error l i = Some a.
Proof. unfold nth_or_panic. destruct (nth_error l i); [injection 1 as ->; reflexivity|discriminate]. Qed.
Lemma index_inv {A} (l : list A) i a : index l i = Ok a -> 0 <= i /\ nth_error l (Z.to_nat i) = Some a.
Proof. unfold index. destruct (Z.ltb_spec i 0); [discriminate|]. intros E. apply nth_or_panic_inv in E. auto. Qed.
Lemma open_for_exact su d k rcv : su_keys su -> forall ri os, open_for su d k rcv ri = Ok os -> forall je, In je os -> opened su k d je.
Proof.
  intros Hk. induction ri as [|[[sk pk] opener] ri IH]; intros os H je Hin; cbn [open_for] in H; [injection H as <-; contradiction|].
  destruct (opener =? rcv); [apply (IH _ H _ Hin)|].
  destruct (private_verify d sk pk (su_ad su) k opener); try discriminate; [|apply (IH _ H _ Hin)].
  apply bind_inv in H. destruct H as (sk' & Es & H). apply bind_inv in H. destruct H as (pk' & Ep & H).
  apply bind_inv in H. destruct H as (o & Eo & H). apply bind_inv in H. destruct H as ([|] & Ec & H); [|discriminate].
  apply bind_inv in H. destruct H as (r & Er & H). injection H as <-. destruct Hin as [<-|Hin]; [|apply (IH _ Er _ Hin)].
  apply index_inv in Es. destruct Es as [Hp Es]. apply index_inv in Ep. destruct Ep as [_ Ep].
  pose proof (keys_pk _ _ _ Hk Es) as Ep'. assert (pk' = mul_by_g sk') as -> by congruence.
  exists (Z.to_nat opener), sk'. rewrite Z2Nat.id by exact Hp. cbn [fst snd]. repeat split; try assumption.
  unfold open_dealing in Eo. destruct (m_decrypt_and_check (d_ct d) (d_cm d) (su_ad su) k opener sk' (mul_by_g sk')); try discriminate. exact Eo.
Qed.
Lemma answer_loop_exact su ds rcv pk : su_keys su -> forall cs rn pr rn', answer_loop su ds rcv pk cs rn = Ok (pr, rn') ->
  forall k os, In (k, os) pr -> exists d, zlookup k ds = Some d /\ forall je, In je os -> opened su k d je.
Proof.
  intros Hk. induction cs as [|[k c] cs IH]; intros rn pr rn' H k' os' Hin; cbn [answer_loop] in H; [injection H as <- <-; contradiction|].
  destruct (zlookup k ds) as [d|] eqn:Ed; [|discriminate].
  apply bind_inv in H. destruct H as ([] & _ & H). apply bind_inv in H. destruct H as (ri & _ & H). apply bind_inv in H. destruct H as (os & Eo & H).
  apply bind_inv in H. destruct H as ([os2 rn2] & E2 & H). apply bind_inv in H. destruct H as ([r rn3] & E3 & H). injection H as <- <-.
  destruct Hin as [E|Hin]; [|apply (IH _ _ _ E3 _ _ Hin)]. injection E as <- <-. exists d. split; [exact Ed|].
  intros je Hje. apply (open_for_exact _ _ _ _ Hk _ _ Eo). apply (delete_loop_in _ _ _ _ _ _ E2 _ Hje).
Qed.
Definition goods su pair (ds : list (Z * dealing)) (pm : list (poly * poly)) : Prop :=
  Forall2 (fun kd e => good_dealing su pair (fst kd) (snd kd) (fst e) (snd e)) ds pm.
Lemma goods_length su pair ds pm : goods su pair ds pm -> length pm = length ds.
Proof. intros H. induction H; cbn [length]; [reflexivity|]. f_equal. assumption. Qed.
Lemma mapM_goods su pair (f : Z * dealing -> res opening) i ds pm : goods su pair ds pm ->
  (forall kd e o, In kd ds -> good_dealing su pair (fst kd) (snd kd) (fst e) (snd e) -> f kd = Ok o -> o = opening_at (fst e) (snd e) pair i) ->
  forall os, mapM f ds = Ok os -> os = map (fun e => opening_at (fst e) (snd e) pair i) pm.
Proof.
  intros H. induction H as [|kd e ds pm Hg Hr IH]; intros Hf os E; cbn [mapM] in E; [injection E as <-; reflexivity|].
  apply bind_inv in E. destruct E as (o & Eo & E). apply bind_inv in E. destruct E as (os' & Es & E). injection E as <-.
  cbn [map]. f_equal; [apply (Hf kd); [left; reflexivity|exact Hg|exact Eo]|apply IH; [|exact Es]].
  intros kd' e' o' Hin. apply Hf. right. exact Hin.
Qed.
Definition pm_opening (pair : bool) cs pm (x : Fq) : opening := if pair then OPedersen (pm_val cs pm x) (pm_mask cs pm x) else OSimple (pm_val cs pm x).
Lemma from_dealings_exact su pair tc pts ds cs pm i sk o : weights pair tc pts ds cs -> goods su pair ds pm -> nth_error (su_pk su) i = Some (mul_by_g sk) ->
  from_dealings ds tc (su_ad su) (Z.of_nat i) sk (mul_by_g sk) = Ok o -> o = pm_opening pair cs pm (from_node_index (Z.of_nat i)).
Proof.
  intros W Gd Hi H. unfold from_dealings in H. apply bind_inv in H. destruct H as (os & Em & H).
  apply (mapM_goods su pair _ (Z.of_nat i) ds pm Gd) in Em.
  - subst os. apply (combine_exact pair tc pts ds cs pm (Z.of_nat i) o W (goods_length _ _ _ _ Gd) H).
  - intros kd e o' _ Hg. apply (good_open su pair _ _ _ _ i sk o' Hg Hi).
Qed.
Lemma from_dealings_and_openings_exact su pair tc pts ds cs pm pr i sk o : su_keys su -> NoDup (map fst ds) ->
  weights pair tc pts ds cs -> goods su pair ds pm -> nth_error (su_pk su) i = Some (mul_by_g sk) ->
  (forall k os, In (k, os) pr -> exists d, zlookup k ds = Some d /\ forall je, In je os -> opened su k d je) ->
  from_dealings_and_openings ds pr tc (su_ad su) (Z.of_nat i) sk (mul_by_g sk) = Ok o -> o = pm_opening pair cs pm (from_node_index (Z.of_nat i)).
Proof.
  intros Hk Nd W Gd Hi Hp H. unfold from_dealings_and_openings in H. apply bind_inv in H. destruct H as (os & Em & H).
  apply (mapM_goods su pair _ (Z.of_nat i) ds pm Gd) in Em.
  - subst os. apply (combine_exact pair tc pts ds cs pm (Z.of_nat i) o W (goods_length _ _ _ _ Gd) H).
  - intros [k d] e o' Hin Hg. cbn [fst snd] in *. destruct (zlookup k pr) as [sh|] eqn:El.
    + apply zlookup_in in El. destruct (Hp _ _ El) as (d' & Ed & Ho). rewrite (zlookup_some _ _ _ Nd Hin) in Ed. injection Ed as <-.
      apply (reconstruct_exact su pair k d (fst e) (snd e) sh); [exact Hg|]. intros j o'' Hj. destruct (Ho _ Hj) as (i' & sk' & E1 & E2 & E3 & E4).
      cbn [fst snd] in *. subst j. split.
      * apply nth_error_lt in E1. destruct Hk as [_ Hk]. unfold int64_ok. lia.
      * apply (good_open su pair k d _ _ i' sk' o'' Hg E2 E4).
    + apply (good_open su pair _ _ _ _ i sk o' Hg Hi).
Qed.
Lemma open_loop_exact su pair tc pts ds cs pm seed : su_keys su -> NoDup (map fst ds) -> weights pair tc pts ds cs -> goods su pair ds pm ->
  forall is rn os, open_loop su ds tc seed is rn = Ok os -> os = map (fun i => pm_opening pair cs pm (from_node_index (Z.of_nat i))) is.
Proof.
  intros Hk Nd W Gd. induction is as [|i is IH]; intros rn os H; cbn [open_loop] in H; [injection H as <-; reflexivity|].
  apply bind_inv in H. destruct H as (sk & Es & H). apply nth_or_panic_inv in Es. apply bind_inv in H. destruct H as (pk & Ep & H). apply nth_or_panic_inv in Ep.
  pose proof (keys_pk _ _ _ Hk Es) as Ep'. assert (pk = mul_by_g sk) as -> by congruence. cbn [map].
  destruct (from_dealings ds tc (su_ad su) (Z.of_nat i) sk (mul_by_g sk)) as [o| | |] eqn:Ef; try discriminate.
  - apply bind_inv in H. destruct H as (r & Er & H). injection H as <-. f_equal; [|apply (IH _ _ Er)].
    apply (from_dealings_exact su pair tc pts ds cs pm i sk o W Gd Ep' Ef).
  - apply bind_inv in H. destruct H as (s & _ & H). apply bind_inv in H. destruct H as (cps & _ & H).
    apply bind_inv in H. destruct H as ([pr rn2] & Ea & H). apply bind_inv in H. destruct H as (o & Eo & H).
    apply bind_inv in H. destruct H as (r & Er & H). injection H as <-. f_equal; [|apply (IH _ _ Er)].
    apply (from_dealings_and_openings_exact su pair tc pts ds cs pm pr i sk o Hk Nd W Gd Ep' (answer_loop_exact _ _ _ _ Hk _ _ _ _ Ea)).
    destruct (from_dealings_and_openings ds pr tc (su_ad su) (Z.of_nat i) sk (mul_by_g sk)); try discriminate. exact Eo.
Qed.
(** ** one round *)
Lemma new_transcript_th th ds op t : op <> TOther -> new_transcript th ds op = Ok t -> 0 <= th.
Proof.
  intros No H. unfold new_transcript in H. apply bind_inv in H. destruct H as ([] & _ & H).
  assert (C : forall ty c, combine_interp ty th ds = Ok c -> 0 <= th).
  { intros ty c Hc. unfold combine_interp in Hc. apply bind_inv in Hc. destruct Hc as (? & _ & Hc). apply bind_inv in Hc. destruct Hc as (? & _ & Hc).
    apply bind_inv in Hc. destruct Hc as (? & Hc & _). unfold go_make in Hc. destruct (Z.ltb_spec th 0); [discriminate|lia]. }
  destruct op as [|p|p|l r|]; [| | | |congruence].
  - apply bind_inv in H. destruct H as (n & Hn & _). unfold go_make in Hn. destruct (Z.ltb_spec th 0); [discriminate|lia].
  - apply bind_inv in H. destruct H as (? & _ & H). destruct (negb _); [discriminate|]. apply bind_inv in H. destruct H as (? & _ & H).
    destruct (_ <? _); [discriminate|]. apply bind_inv in H. destruct H as (c & H & _). apply (C _ _ H).
  - apply bind_inv in H. destruct H as (? & _ & H). destruct (negb _); [discriminate|]. apply bind_inv in H. destruct H as (? & _ & H).
    destruct (_ <? _); [discriminate|]. apply bind_inv in H. destruct H as (c & H & _). apply (C _ _ H).
  - apply bind_inv in H. destruct H as (? & _ & H). destruct (negb _); [discriminate|]. apply bind_inv in H. destruct H as (? & _ & H).
    destruct (negb _); [discriminate|]. apply bind_inv in H. destruct H as (? & _ & H). apply bind_inv in H. destruct H as (? & _ & H).
    destruct (_ <? _); [discriminate|]. apply bind_inv in H. destruct H as (c & H & _). apply (C _ _ H).
Qed.
(** the round has shared the polynomials [po], [mo] among [n] nodes *)
Definition rinv (n : nat) (th : Z) (pair : bool) (po mo : poly) (r : round) : Prop :=
  0 < th /\ exists l, rd_commitment r = kcm pair l /\ unwrap (tr_commitment (rd_transcript r)) = kcm pair l /\ sharing th pair l po mo /\
    rd_openings r = map (fun i => opening_at po mo pair (Z.of_nat i)) (seq 0 n).
Definition su_eq (su su' : setup) : Prop :=
  su_threshold su' = su_threshold su /\ su_receivers su' = su_receivers su /\ su_ad su' = su_ad su /\ su_pk su' = su_pk su /\ su_sk su' = su_sk su.
Definition secrets (shs : list shares) (ds : list (Z * dealing)) (pm : list (poly * poly)) : Prop :=
  Forall2 (fun kd e => 0 <= fst kd < Z.of_nat (length shs) /\ exists s, nth_error shs (Z.to_nat (fst kd)) = Some s /\
    forall x, sh_secret s = Some x -> pev (fst e) fzero = x) ds pm.
Lemma made_goods su pair shs ds : made su shs ds -> (forall s, In s shs -> sh_pair s = pair) -> exists pm, goods su pair ds pm /\ secrets shs ds pm.
Proof.
  intros [_ H] Hp. induction ds as [|[k d] ds IH]; [exists []; split; constructor|].
  destruct IH as (pm & G1 & G2); [intros k' d' Hin; apply H; right; exact Hin|].
  destruct (H k d (or_introl eq_refl)) as (Hk & s & po & mo & Hs & Hg & Hx). rewrite (Hp s (nth_error_In _ _ Hs)) in Hg.
  exists ((po, mo) :: pm). split; constructor; cbn [fst snd]; eauto.
Qed.
Lemma round_run_inv su shs dealers nc op pair r su' : su_keys su -> Z.of_nat (length shs) <= 2^63 ->
  (forall s, In s shs -> s <> SOther /\ sh_pair s = pair) -> op <> TOther -> op_single op = negb pair ->
  round_run cbor_cm su shs dealers nc op = Ok (r, su') ->
  su_eq su su' /\ exists ds pm cs po mo, rinv (Z.to_nat (su_receivers su)) (su_threshold su) pair po mo r /\
    keys_ok ds /\ secrets shs ds pm /\ new_transcript (su_threshold su) ds op = Ok (rd_transcript r) /\
    (op <> TRandom -> lagrange_at_zero (map fst ds) = Ok cs /\ tr_commitment (rd_transcript r) = CInterp (rd_commitment r)) /\
    forall x, pev po x = pm_val cs pm x.
Proof.
  intros Hk Hn Hs No Ho H. unfold round_run in H. apply bind_inv in H. destruct H as ([s su1] & E1 & H).
  unfold next_dealing_seed in E1. apply bind_inv in E1. destruct E1 as (s1 & _ & E1).
  assert (Q : su_eq su su1) by (injection E1 as <- <-; repeat split). clear E1. pose proof Q as (Qt & Qn & Qa & Qp & Qs).
  assert (Hk1 : su_keys su1) by (unfold su_keys; rewrite Qp, Qs; exact Hk). rewrite <- Qt, <- Qn.
  apply bind_inv in H. destruct H as (ds & Ed & H). apply bind_inv in H. destruct H as (t & Et & H). apply bind_inv in H. destruct H as (r' & Er & H).
  injection H as <- <-. split; [exact Q|].
  apply create_dealings_made in Ed; [|intros Hin; apply (proj1 (Hs _ Hin)); reflexivity].
  assert (K : keys_ok ds).
  { destruct Ed as [Ha Hd]. split; [|apply asc_nodup, Ha]. apply Forall_forall. intros k Hin. apply in_map_iff in Hin. destruct Hin as ([k' d] & <- & Hin).
    destruct (Hd _ _ Hin) as (B & _). cbn [fst]. unfold int64_ok. lia. }
  destruct (made_goods su1 pair shs ds Ed (fun s' Hin => proj2 (Hs s' Hin))) as (pm & Gd & Sc).
  pose proof (new_transcript_th _ _ _ _ No Et) as Hth. pose proof (new_transcript_shape _ _ _ _ K Hth No Et) as Sh.
  destruct (shape_weights _ _ _ _ Sh) as (pts & cs & Lp & W). rewrite Ho, negb_involutive in W.
  unfold round_new in Er. apply bind_inv in Er. destruct Er as (os & Eo & Er). apply bind_inv in Er. destruct Er as (c & Ec & Er). injection Er as <-.
  cbn [rd_transcript]. unfold open_dealings in Eo. apply bind_inv in Eo. destruct Eo as (n & En & Eo). apply bind_inv in Eo. destruct Eo as ([] & Ecv & Eo).
  apply bind_inv in Eo. destruct Eo as (sd & _ & Eo). apply bind_inv in Eo. destruct Eo as (sd2 & _ & Eo). apply bind_inv in Eo. destruct Eo as (rn & _ & Eo).
  assert (Hn' : n = Z.to_nat (su_receivers su1)) by (unfold go_make in En; destruct (Z.ltb_spec (su_receivers su1) 0); [discriminate|injection En as <-; reflexivity]).
  apply (open_loop_exact su1 pair _ pts ds cs pm _ Hk1 (proj2 K) W Gd) in Eo.
  assert (U : unwrap (tr_commitment t) = kcm pair pts).
  { destruct W as (_ & [(-> & -> & _)|(-> & _)] & _); [reflexivity|]. cbn [unwrap]. apply unwrap_kcm. }
  assert (Hp : 0 < su_threshold su1).
  { unfold c_curve, c_points in Ecv. rewrite U in Ecv. destruct pts; [|cbn [length] in Lp; lia]. destruct pair; discriminate. }
  destruct (fwsum_isp (Z.to_nat (su_threshold su1)) fst pm) with (cs := cs) as (po & L1 & E1).
  { intros e He. clear - Gd He. induction Gd as [|kd e' ds pm Hg _ IH]; [contradiction|]. destruct He as [<-|He]; [|apply IH, He].
    destruct Hg as ((l & _ & (_ & L & _)) & _). exact L. }
  destruct (fwsum_isp (Z.to_nat (su_threshold su1)) snd pm) with (cs := cs) as (mo & L2 & E2).
  { intros e He. clear - Gd He. induction Gd as [|kd e' ds pm Hg _ IH]; [contradiction|]. destruct He as [<-|He]; [|apply IH, He].
    destruct Hg as ((l & _ & (_ & _ & L & _)) & _). exact L. }
  exists ds, pm, cs, po, mo. split; [|split; [exact K|split; [exact Sc|split; [exact Et|split]]]].
  - split; [exact Hp|]. exists pts. cbn [rd_commitment rd_transcript rd_openings].
    split; [unfold c_clone in Ec; rewrite U in Ec; destruct pair; injection Ec as <-; reflexivity|]. split; [exact U|]. split.
    + split; [exact Lp|]. split; [exact L1|]. split; [exact L2|]. intros x. destruct W as (_ & _ & W). rewrite W.
      unfold kev. rewrite <- E1, <- E2. change (wsum cs (map (fun kd => gev (dl_pts kd) x) ds) = if pair then pedersen (pm_val cs pm x) (pm_mask cs pm x) else mul_by_g (pm_val cs pm x)).
      rewrite <- wsum_kev. f_equal. clear - Gd. induction Gd as [|kd e ds pm Hg _ IH]; [reflexivity|]. cbn [map]. f_equal; [|exact IH].
      destruct Hg as ((l & U & (_ & _ & _ & S)) & _). unfold dl_pts. rewrite U, pts_kcm. apply S.
    + rewrite Eo, Hn'. apply map_ext. intros i. rewrite opening_at_eq. unfold pm_opening, pm_val, pm_mask. rewrite E1, E2. reflexivity.
  - intros Nr. destruct W as (_ & [(Et' & _ & _)|(Et' & El & _)] & _).
    2: { split; [exact El|]. cbn [rd_commitment]. rewrite Et'. f_equal. unfold c_clone in Ec. rewrite U in Ec. destruct pair; injection Ec as <-; reflexivity. }
    destruct Sh as (pts' & _ & Sh). destruct op as [|p|p|l1 r1|]; try congruence; destruct Sh as [Sh _]; rewrite Sh in Et'; discriminate.
  - intros x. symmetry. apply E1.
Qed.
Lemma secret_interp shs ds pm cs f : keys_ok ds -> secrets shs ds pm -> lagrange_at_zero (map fst ds) = Ok cs -> isp (length ds) f ->
  (forall i s, nth_error shs i = Some s -> sh_secret s = Some (f (from_node_index (Z.of_nat i)))) -> pm_val cs pm fzero = f fzero.
Proof.
  intros [F N] Hs El I Hf. rewrite <- (lagrange_fwsum fzero (map fst ds) f cs F N El) by (rewrite map_length; exact I).
  unfold pm_val. f_equal. clear - Hs Hf. induction Hs as [|kd e ds pm (B & s & Es & Hx) _ IH]; [reflexivity|]. cbn [map]. f_equal; [|exact IH].
  apply Hx. rewrite (Hf _ _ Es), Z2Nat.id by lia. reflexivity.
Qed.
Lemma nth_seq_map {A} (g : nat -> A) n i a : nth_error (map g (seq 0 n)) i = Some a -> a = g i.
Proof.
  intros H. assert (L : (i < n)%nat) by (apply nth_error_lt in H; rewrite map_length, seq_length in H; exact H).
  rewrite (map_nth_error g i (seq 0 n) (d := i)) in H; [injection H as <-; reflexivity|].
  rewrite (nth_error_nth' (seq 0 n) O) by (rewrite seq_length; exact L). rewrite seq_nth by exact L. reflexivity.
Qed.
Lemma c_clone_kcm pair l c : c_clone (kcm pair l) = Ok c -> c = kcm pair l.
Proof. unfold c_clone. rewrite unwrap_kcm. destruct pair; cbn; injection 1 as <-; reflexivity. Qed.
Lemma random_inv su dealers nc r su' : su_keys su -> dealers <= 2^63 -> round_random cbor_cm su dealers nc = Ok (r, su') ->
  su_eq su su' /\ exists po mo, rinv (Z.to_nat (su_receivers su)) (su_threshold su) true po mo r.
Proof.
  intros Hk Hd H. unfold round_random in H. apply bind_inv in H. destruct H as (n & En & H).
  assert (Z.of_nat n <= 2^63) by (unfold go_make in En; destruct (Z.ltb_spec dealers 0); [discriminate|injection En as <-; lia]).
  apply (round_run_inv su _ dealers nc TRandom true) in H; [|exact Hk|rewrite repeat_length; assumption| |discriminate|reflexivity].
  - destruct H as (Q & ds & pm & cs & po & mo & R & _). eauto.
  - intros s Hs. apply repeat_spec in Hs. subst s. split; [discriminate|reflexivity].
Qed.
Lemma reshare_inv su n th po mo masked dealers nc r su' : su_keys su -> Z.of_nat n <= 2^63 -> rinv n th true po mo masked ->
  round_reshare_masked cbor_cm su masked dealers nc = Ok (r, su') ->
  su_eq su su' /\ exists po' mo', rinv (Z.to_nat (su_receivers su)) (su_threshold su) false po' mo' r /\ pev po' fzero = pev po fzero /\
    tr_commitment (rd_transcript r) = CInterp (rd_commitment r).
Proof.
  intros Hk Hn (Hth & l & Ec & _ & (Ll & Lp & _) & Eo) H. unfold round_reshare_masked in H. rewrite Ec, Eo in H.
  rewrite (mapM_total _ (fun o => SReshareMasked (oval o) (omask o))) in H by (intros o Hin; apply in_map_iff in Hin; destruct Hin as (i & <- & _); reflexivity).
  rewrite bind_Ok in H. apply bind_inv in H. destruct H as (p & Ep & H). apply c_clone_kcm in Ep. subst p.
  apply (round_run_inv su _ dealers nc _ false) in H; [|exact Hk| | |discriminate|reflexivity].
  - destruct H as (Q & ds & pm & cs & po' & mo' & R & K & Sc & Et & Lg & E). split; [exact Q|]. exists po', mo'. split; [exact R|].
    destruct (Lg ltac:(discriminate)) as [El Etc]. split; [|exact Etc]. rewrite E.
    apply (secret_interp _ ds pm cs (pev po) K Sc El).
    + apply isp_pev. unfold new_transcript in Et. apply bind_inv in Et. destruct Et as ([] & _ & Et). cbn [kcm c_type unwrap bind] in Et.
      rewrite Z.eqb_refl in Et. cbn [negb c_len c_points unwrap bind] in Et.
      destruct (Z.ltb_spec (Z.of_nat (length ds)) (Z.of_nat (length l))); [discriminate|]. lia.
    + intros i s Hs. rewrite map_map in Hs. apply nth_seq_map in Hs. subst s. cbn [sh_secret]. f_equal. rewrite opening_at_eq. reflexivity.
  - rewrite !map_length, seq_length. exact Hn.
  - intros s Hs. rewrite map_map in Hs. apply in_map_iff in Hs. destruct Hs as (i & <- & _). split; [discriminate|reflexivity].
Qed.
Lemma times_shares_ok (f g m : nat -> Fq) is :
  times_shares (map (fun i => OSimple (f i)) is) (map (fun i => OPedersen (g i) (m i)) is) = Ok (map (fun i => STimes (f i) (g i) (m i)) is).
Proof. induction is as [|i is IH]; cbn [map times_shares]; [reflexivity|]. rewrite IH. reflexivity. Qed.
Lemma multiply_inv su n th pl ml px mx masked unmasked dealers nc r su' : su_keys su -> Z.of_nat n <= 2^63 -> rinv n th true pl ml masked -> rinv n th false px mx unmasked ->
  round_multiply cbor_cm su masked unmasked dealers nc = Ok (r, su') ->
  su_eq su su' /\ exists po' mo', rinv (Z.to_nat (su_receivers su)) (su_threshold su) true po' mo' r /\ pev po' fzero = fmul (pev px fzero) (pev pl fzero).
Proof.
  intros Hk Hn (Hth & l & Ec & _ & (Ll & Lp & _) & Eo) (_ & l' & Ec' & _ & (Ll' & Lp' & _) & Eo') H. unfold round_multiply in H. rewrite Ec, Eo, Ec', Eo' in H.
  rewrite (map_ext _ (fun i => OSimple (pev px (from_node_index (Z.of_nat i))))) in H by (intros i; apply opening_at_eq).
  rewrite (map_ext (fun i => opening_at pl ml true (Z.of_nat i)) (fun i => OPedersen (pev pl (from_node_index (Z.of_nat i))) (pev ml (from_node_index (Z.of_nat i))))) in H
    by (intros i; apply opening_at_eq).
  rewrite times_shares_ok, bind_Ok in H. apply bind_inv in H. destruct H as (p & Ep & H). apply c_clone_kcm in Ep. subst p.
  apply bind_inv in H. destruct H as (p & Ep & H). apply c_clone_kcm in Ep. subst p.
  apply (round_run_inv su _ dealers nc _ true) in H; [|exact Hk| | |discriminate|reflexivity].
  - destruct H as (Q & ds & pm & cs & po' & mo' & R & K & Sc & Et & Lg & E). split; [exact Q|]. exists po', mo'. split; [exact R|].
    destruct (Lg ltac:(discriminate)) as [El Etc]. rewrite E.
    apply (secret_interp _ ds pm cs (fun x => fmul (pev px x) (pev pl x)) K Sc El).
    + unfold new_transcript in Et. apply bind_inv in Et. destruct Et as ([] & _ & Et). cbn [kcm c_type unwrap bind] in Et.
      rewrite !Z.eqb_refl in Et. cbn [negb c_len c_points unwrap bind] in Et.
      destruct (Z.ltb_spec (Z.of_nat (length ds)) (Z.of_nat (length l') + Z.of_nat (length l) - 1)); [discriminate|].
      apply (isp_mono (length l' + length l - 1)); [lia|]. apply isp_mul; apply isp_pev; lia.
    + intros i s Hs. apply nth_seq_map in Hs. subst s. reflexivity.
  - rewrite map_length, seq_length. exact Hn.
  - intros s Hs. apply in_map_iff in Hs. destruct Hs as (i & <- & _). split; [discriminate|reflexivity].
Qed.

(** ** the whole setup *)
Lemma new_setup_inv dealers th seed su : dealers <= 2^63 -> new_setup dealers th seed = Ok su ->
  su_keys su /\ su_threshold su = th /\ su_receivers su = dealers /\ 0 <= dealers.
Proof.
  intros Hd H. unfold new_setup in H. apply bind_inv in H. destruct H as (rn & _ & H). destruct (fill_uint8 rn (repeat 0 32)) as [ad rn1].
  apply bind_inv in H. destruct H as (n & En & H). apply bind_inv in H. destruct H as (k & Ek & H). injection H as <-.
  unfold go_make in En. destruct (Z.ltb_spec dealers 0); [discriminate|]. injection En as <-. cbn [su_threshold su_receivers].
  split; [|auto]. split; [reflexivity|]. cbn [su_sk].
  destruct (random_scalars_cases (Z.to_nat dealers) rn1) as [(l & rn2 & E & Ll)|E]; [|rewrite E in Ek; discriminate]. rewrite E in Ek. injection Ek as <-.
  cbn [fst]. lia.
Qed.
Lemma su_eq_keys su su' : su_eq su su' -> su_keys su -> su_keys su'.
Proof. intros (_ & _ & _ & E1 & E2). unfold su_keys. rewrite E1, E2. auto. Qed.
Lemma new_sig_setup_inv dealers th nc seed s : dealers <= 2^63 -> new_sig_setup cbor_cm dealers th nc seed = Ok s ->
  exists px mx pk mk pl ml pxl mxl pkl mkl, let n := Z.to_nat dealers in
    su_threshold (ps_setup s) = th /\ su_receivers (ps_setup s) = dealers /\ 0 <= dealers /\
    rinv n th false px mx (ps_key s) /\ rinv n th false pk mk (ps_kappa s) /\ rinv n th true pl ml (ps_lambda s) /\
    rinv n th true pxl mxl (ps_key_lambda s) /\ rinv n th true pkl mkl (ps_kappa_lambda s) /\
    tr_commitment (rd_transcript (ps_kappa s)) = CInterp (rd_commitment (ps_kappa s)) /\
    pev pxl fzero = fmul (pev px fzero) (pev pl fzero) /\ pev pkl fzero = fmul (pev pk fzero) (pev pl fzero).
Proof.
  intros Hd H. unfold new_sig_setup in H. apply bind_inv in H. destruct H as (su & E0 & H).
  apply (new_setup_inv _ _ _ _ Hd) in E0. destruct E0 as (K0 & T0 & N0 & Hp).
  assert (Hn : Z.of_nat (Z.to_nat dealers) <= 2^63) by lia.
  apply bind_inv in H. destruct H as ([key0 su1] & E1 & H). apply (random_inv _ _ _ _ _ K0 Hd) in E1. destruct E1 as (Q1 & pk0 & mk0 & R1).
  pose proof (su_eq_keys _ _ Q1 K0) as K1. destruct Q1 as (T1 & N1 & _). rewrite T0, N0 in R1. rewrite T0 in T1. rewrite N0 in N1.
  apply bind_inv in H. destruct H as ([kap0 su2] & E2 & H). apply (random_inv _ _ _ _ _ K1 Hd) in E2. destruct E2 as (Q2 & pk1 & mk1 & R2).
  pose proof (su_eq_keys _ _ Q2 K1) as K2. destruct Q2 as (T2 & N2 & _). rewrite T1, N1 in R2. rewrite T1 in T2. rewrite N1 in N2.
  apply bind_inv in H. destruct H as ([lam su3] & E3 & H). apply (random_inv _ _ _ _ _ K2 Hd) in E3. destruct E3 as (Q3 & pl & ml & R3).
  pose proof (su_eq_keys _ _ Q3 K2) as K3. destruct Q3 as (T3 & N3 & _). rewrite T2, N2 in R3. rewrite T2 in T3. rewrite N2 in N3.
  apply bind_inv in H. destruct H as ([key su4] & E4 & H). apply (reshare_inv _ _ _ _ _ _ _ _ _ _ K3 Hn R1) in E4. destruct E4 as (Q4 & px & mx & R4 & _ & _).
  pose proof (su_eq_keys _ _ Q4 K3) as K4. destruct Q4 as (T4 & N4 & _). rewrite T3, N3 in R4. rewrite T3 in T4. rewrite N3 in N4.
  apply bind_inv in H. destruct H as ([kap su5] & E5 & H). apply (reshare_inv _ _ _ _ _ _ _ _ _ _ K4 Hn R2) in E5. destruct E5 as (Q5 & pk & mk & R5 & _ & C5).
  pose proof (su_eq_keys _ _ Q5 K4) as K5. destruct Q5 as (T5 & N5 & _). rewrite T4, N4 in R5. rewrite T4 in T5. rewrite N4 in N5.
  apply bind_inv in H. destruct H as ([xl su6] & E6 & H). apply (multiply_inv _ _ _ _ _ _ _ _ _ _ _ _ _ K5 Hn R3 R4) in E6. destruct E6 as (Q6 & pxl & mxl & R6 & S6).
  pose proof (su_eq_keys _ _ Q6 K5) as K6. destruct Q6 as (T6 & N6 & _). rewrite T5, N5 in R6. rewrite T5 in T6. rewrite N5 in N6.
  apply bind_inv in H. destruct H as ([kl su7] & E7 & H). apply (multiply_inv _ _ _ _ _ _ _ _ _ _ _ _ _ K6 Hn R3 R5) in E7. destruct E7 as (Q7 & pkl & mkl & R7 & S7).
  destruct Q7 as (T7 & N7 & _). rewrite T6, N6 in R7. rewrite T6 in T7. rewrite N6 in N7.
  injection H as <-. exists px, mx, pk, mk, pl, ml, pxl, mxl, pkl, mkl. cbn [ps_setup ps_key ps_kappa ps_lambda ps_key_lambda ps_kappa_lambda].
  repeat (split; [assumption|]). assumption.
Qed.
Lemma rinv_constant n th po mo r : rinv n th false po mo r -> tr_constant_term (rd_transcript r) = Ok (mul_by_g (pev po fzero)) /\
  exists l, rd_commitment r = CSimple (mul_by_g (pev po fzero) :: l).
Proof.
  intros (Hth & l & Ec & U & (Ll & _ & _ & E) & _). destruct l as [|P l]; [cbn [length] in Ll; lia|].
  specialize (E fzero). rewrite gev_0 in E. cbn [nth kev kcm] in *. subst P. split; [|eauto].
  unfold tr_constant_term, c_constant_term, c_points. rewrite U. reflexivity.
Qed.
Lemma rinv_opening n th pair po mo r i o : rinv n th pair po mo r -> nth_or_panic (rd_openings r) i = Ok o -> o = opening_at po mo pair (Z.of_nat i).
Proof. intros (_ & l & _ & _ & _ & Eo) H. rewrite Eo in H. apply nth_or_panic_inv, nth_seq_map in H. exact H. Qed.
Lemma share_loop_inv s pa h beacon n th pl ml pxl mxl pkl mkl : rinv n th true pl ml (ps_lambda s) ->
  rinv n th true pxl mxl (ps_key_lambda s) -> rinv n th true pkl mkl (ps_kappa_lambda s) ->
  forall is r, share_loop s pa h beacon is = Ok r -> map fst r = map Z.of_nat is /\
    honest_shares pa h beacon (rd_transcript (ps_key s)) (rd_transcript (ps_kappa s)) pl pkl pxl r.
Proof.
  intros R1 R2 R3. induction is as [|i is IH]; intros r H; cbn [share_loop] in H; [injection H as <-; split; [reflexivity|intros ? ? []]|].
  apply bind_inv in H. destruct H as (l & El & H). apply bind_inv in H. destruct H as (kl & Ekl & H). apply bind_inv in H. destruct H as (xl & Exl & H).
  apply bind_inv in H. destruct H as (sh & Es & H). apply bind_inv in H. destruct H as ([] & _ & H). apply bind_inv in H. destruct H as (r' & Er & H). injection H as <-.
  apply (rinv_opening _ _ _ _ _ _ _ _ R1) in El. apply (rinv_opening _ _ _ _ _ _ _ _ R2) in Exl. apply (rinv_opening _ _ _ _ _ _ _ _ R3) in Ekl. subst l kl xl.
  destruct (IH _ Er) as [I1 I2]. split; [cbn [map fst]; f_equal; exact I1|]. intros j s' [E|Hin]; [|apply (I2 _ _ Hin)]. injection E as <- <-.
  exists (spec_eval ml (node_x (Z.of_nat i))), (spec_eval mkl (node_x (Z.of_nat i))), (spec_eval mxl (node_x (Z.of_nat i))). exact Es.
Qed.
End Protocol.
