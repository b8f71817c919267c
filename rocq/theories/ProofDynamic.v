(** Rounds with changing thresholds and numbers of nodes and of dealers. *)
From Coq Require Import ZArith Lia Bool String List Ring Field Sorted.
From Verif Require Import Base BaseFacts Zmod Fields ModelScalar ProofScalar ModelXmd ModelRo ProofRand SpecPoly ModelPoly ProofPoly
  ProofLagrange ProofSecrecy ModelGroup GroupFacts SpecGroup ModelCommit ProofCommit ModelZk ProofZk ModelMega ProofMega
  ModelDealing SpecDealing ProofDealing ProofTranscript ProofHonest ModelComplaint ProofComplaint ModelKey ModelSign SpecSign ProofSign
  ModelProtocol ProofProtocol SpecDrivers.
Import ListNotations.
Open Scope Z_scope.

Section Dynamic.
Context {X : Oracles} (HX : oracles_ok X) {GO : Grp} {GL : GrpLaws GO}.
Context (cbor_cm : commitment -> bytes).

(** ** resharing an unmasked round, and products of rounds of different sizes *)
Lemma reshare_unmasked_inv su n th po mo un dealers nc r su' : su_keys su -> Z.of_nat n <= 2^63 -> rinv n th false po mo un ->
  round_reshare_unmasked cbor_cm su un dealers nc = Ok (r, su') ->
  su_eq su su' /\ exists po' mo', rinv (Z.to_nat (su_receivers su)) (su_threshold su) false po' mo' r /\ pev po' fzero = pev po fzero.
Proof.
  intros Hk Hn (Hth & l & Ec & _ & (Ll & Lp & _) & Eo) H. unfold round_reshare_unmasked in H. rewrite Ec, Eo in H.
  rewrite (mapM_total _ (fun o => SReshareUnmasked (oval o))) in H by (intros o Hin; apply in_map_iff in Hin; destruct Hin as (i & <- & _); reflexivity).
  rewrite bind_Ok in H. apply bind_inv in H. destruct H as (p & Ep & H). apply c_clone_kcm in Ep. subst p.
  apply (round_run_inv HX cbor_cm su _ dealers nc _ false) in H; [|exact Hk| | |discriminate|reflexivity].
  - destruct H as (Q & ds & pm & cs & po' & mo' & R & K & Sc & Et & Lg & E). split; [exact Q|]. exists po', mo'. split; [exact R|].
    destruct (Lg ltac:(discriminate)) as [El Etc]. rewrite E.
    apply (secret_interp _ ds pm cs (pev po) K Sc El).
    + apply isp_pev. unfold new_transcript in Et. apply bind_inv in Et. destruct Et as ([] & _ & Et). cbn [kcm c_type unwrap bind] in Et.
      rewrite Z.eqb_refl in Et. cbn [negb c_len c_points unwrap bind] in Et.
      destruct (Z.ltb_spec (Z.of_nat (length ds)) (Z.of_nat (length l))); [discriminate|]. lia.
    + intros i s Hs. rewrite map_map in Hs. apply nth_seq_map in Hs. subst s. cbn [sh_secret]. f_equal. rewrite opening_at_eq. reflexivity.
  - rewrite !map_length, seq_length. exact Hn.
  - intros s Hs. rewrite map_map in Hs. apply in_map_iff in Hs. destruct Hs as (i & <- & _). split; [discriminate|reflexivity].
Qed.
Lemma times_shares_any (f g m : nat -> Fq) : forall is js sh,
  times_shares (map (fun i => OSimple (f i)) is) (map (fun i => OPedersen (g i) (m i)) js) = Ok sh ->
  sh = map (fun e => STimes (f (fst e)) (g (snd e)) (m (snd e))) (combine is js) /\ length sh = length is.
Proof.
  induction is as [|i is IH]; intros js sh H; cbn [map times_shares] in H; [injection H as <-; split; reflexivity|].
  destruct js as [|j js]; [discriminate|]. cbn [map] in H. apply bind_inv in H. destruct H as (sh' & H & E). injection E as <-.
  destruct (IH js sh' H) as [-> L]. split; [reflexivity|]. cbn [length]. f_equal. exact L.
Qed.
Lemma combine_seq n m : forall k, combine (seq k n) (seq k m) = map (fun i => (i, i)) (seq k (Nat.min n m)).
Proof.
  revert m. induction n as [|n IH]; intros m k; [reflexivity|]. destruct m as [|m]; [reflexivity|]. cbn [seq combine Nat.min map]. f_equal. apply IH.
Qed.
Lemma multiply_inv2 su n th n' th' pl ml px mx masked unmasked dealers nc r su' : su_keys su -> Z.of_nat n' <= 2^63 ->
  rinv n th true pl ml masked -> rinv n' th' false px mx unmasked ->
  round_multiply cbor_cm su masked unmasked dealers nc = Ok (r, su') ->
  su_eq su su' /\ exists po' mo', rinv (Z.to_nat (su_receivers su)) (su_threshold su) true po' mo' r /\ pev po' fzero = fmul (pev px fzero) (pev pl fzero).
Proof.
  intros Hk Hn (Hth & l & Ec & _ & (Ll & Lp & _) & Eo) (Hth' & l' & Ec' & _ & (Ll' & Lp' & _) & Eo') H. unfold round_multiply in H. rewrite Ec, Eo, Ec', Eo' in H.
  rewrite (map_ext _ (fun i => OSimple (pev px (from_node_index (Z.of_nat i))))) in H by (intros i; apply opening_at_eq).
  rewrite (map_ext (fun i => opening_at pl ml true (Z.of_nat i)) (fun i => OPedersen (pev pl (from_node_index (Z.of_nat i))) (pev ml (from_node_index (Z.of_nat i))))) in H
    by (intros i; apply opening_at_eq).
  apply bind_inv in H. destruct H as (sh & Es & H). apply times_shares_any in Es. destruct Es as [Es Ls]. rewrite seq_length in Ls.
  rewrite combine_seq, map_map in Es. cbn [fst snd] in Es.
  apply bind_inv in H. destruct H as (p & Ep & H). apply c_clone_kcm in Ep. subst p.
  apply bind_inv in H. destruct H as (p & Ep & H). apply c_clone_kcm in Ep. subst p.
  apply (round_run_inv HX cbor_cm su _ dealers nc _ true) in H; [|exact Hk| | |discriminate|reflexivity].
  - destruct H as (Q & ds & pm & cs & po' & mo' & R & K & Sc & Et & Lg & E). split; [exact Q|]. exists po', mo'. split; [exact R|].
    destruct (Lg ltac:(discriminate)) as [El Etc]. rewrite E.
    apply (secret_interp _ ds pm cs (fun x => fmul (pev px x) (pev pl x)) K Sc El).
    + unfold new_transcript in Et. apply bind_inv in Et. destruct Et as ([] & _ & Et). cbn [kcm c_type unwrap bind] in Et.
      rewrite !Z.eqb_refl in Et. cbn [negb c_len c_points unwrap bind] in Et.
      destruct (Z.ltb_spec (Z.of_nat (length ds)) (Z.of_nat (length l') + Z.of_nat (length l) - 1)); [discriminate|].
      apply (isp_mono (length l' + length l - 1)); [lia|]. apply isp_mul; apply isp_pev; lia.
    + intros i s Hs. rewrite Es in Hs. apply nth_seq_map in Hs. subst s. reflexivity.
  - lia.
  - intros s Hs. rewrite Es in Hs. apply in_map_iff in Hs. destruct Hs as (i & <- & _). split; [discriminate|reflexivity].
Qed.

(** ** no more dealings than dealers asked for *)
Lemma corrupt_loop_keys su : forall todo ds rn r, asc ds -> (forall e, In e todo -> In (fst e) (map fst ds)) -> corrupt_loop su todo ds rn = Ok r ->
  map fst r = map fst ds.
Proof.
  induction todo as [|[k d] todo IH]; intros ds rn r Ha Hi H; cbn [corrupt_loop] in H; [injection H as <-; reflexivity|].
  destruct (rng_uint32 rn) as [u rn1]. destruct (su_threshold su =? 0); [discriminate|].
  apply bind_inv in H. destruct H as ([ts rn2] & _ & H). apply bind_inv in H. destruct H as ([sd rn3] & _ & H).
  apply bind_inv in H. destruct H as (bad & _ & H). apply bind_inv in H. destruct H as ([] & _ & H).
  pose proof (zset_keys k bad ds Ha (Hi _ (or_introl eq_refl))) as E.
  apply IH in H; [rewrite H; exact E|apply zset_asc, Ha|]. intros e He. rewrite E. apply Hi. right. exact He.
Qed.
Lemma create_dealings_few su shs dealers nc op seed ds : ~ In SOther shs -> create_dealings su shs dealers nc op seed = Ok ds -> Z.of_nat (length ds) <= dealers.
Proof.
  intros Hs H. unfold create_dealings in H. apply bind_inv in H. destruct H as (rn & _ & H). apply bind_inv in H. destruct H as ([ds1 rn1] & E1 & H).
  apply bind_inv in H. destruct H as ([ds2 rn2] & E2 & H). apply bind_inv in H. destruct H as ([bad rn3] & E3 & H).
  apply (made_deal HX _ _ _ _ _ _ Hs) in E1. pose proof E1 as [A1 _]. destruct (delete_down_incl _ _ _ _ _ A1 E2) as (A2 & I2 & L2 & _).
  apply corrupt_loop_keys in H; [rewrite <- (map_length fst), H, map_length; exact L2|exact A2|].
  intros e He. apply in_map. apply (damage_loop_in _ _ _ _ _ _ _ E3 ltac:(intros x [])). exact He.
Qed.
Lemma round_run_few su shs dealers nc op r su' : ~ In SOther shs -> round_run cbor_cm su shs dealers nc op = Ok (r, su') ->
  exists ds t, Z.of_nat (length ds) <= dealers /\ Z.of_nat (length ds) <= Z.of_nat (length shs) /\ new_transcript (su_threshold su) ds op = Ok t.
Proof.
  intros Hs H. unfold round_run in H. apply bind_inv in H. destruct H as ([s su1] & E1 & H).
  unfold next_dealing_seed in E1. apply bind_inv in E1. destruct E1 as (s1 & _ & E1). injection E1 as _ <-.
  apply bind_inv in H. destruct H as (ds & Ed & H). apply bind_inv in H. destruct H as (t & Et & H).
  exists ds, t. split; [apply (create_dealings_few _ _ _ _ _ _ _ Hs Ed)|]. split; [|exact Et].
  apply (create_dealings_made HX _ _ _ _ _ _ _ Hs) in Ed. destruct Ed as [Ha Hd]. apply asc_nodup in Ha.
  assert (L : (length (map fst ds) <= length (map Z.of_nat (seq 0 (length shs))))%nat).
  { apply NoDup_incl_length; [exact Ha|]. intros k Hk. apply in_map_iff in Hk. destruct Hk as ([k' d] & <- & Hin). destruct (Hd _ _ Hin) as (B & _).
    cbn [fst]. apply in_map_iff. exists (Z.to_nat k'). split; [lia|]. apply in_seq. lia. }
  rewrite !map_length, seq_length in L. lia.
Qed.
Definition enough (op : operation) (m : Z) : Prop :=
  match op with
  | TRandom | TOther => True
  | TReshareMasked p | TReshareUnmasked p => forall n, c_len p = Ok n -> n <= m
  | TTimes l r => forall n n', c_len l = Ok n -> c_len r = Ok n' -> n + n' - 1 <= m
  end.
Lemma new_transcript_enough th ds op t : new_transcript th ds op = Ok t -> enough op (Z.of_nat (length ds)).
Proof.
  unfold new_transcript. intros H. apply bind_inv in H. destruct H as ([] & _ & H). destruct op as [|p|p|l r|]; cbn [enough]; [exact I| | | |exact I].
  - intros n En. apply bind_inv in H. destruct H as (? & _ & H). destruct (negb _); [discriminate|]. rewrite En, bind_Ok in H.
    destruct (Z.ltb_spec (Z.of_nat (length ds)) n); [discriminate|lia].
  - intros n En. apply bind_inv in H. destruct H as (? & _ & H). destruct (negb _); [discriminate|]. rewrite En, bind_Ok in H.
    destruct (Z.ltb_spec (Z.of_nat (length ds)) n); [discriminate|lia].
  - intros n n' En En'. apply bind_inv in H. destruct H as (? & _ & H). destruct (negb _); [discriminate|]. apply bind_inv in H. destruct H as (? & _ & H).
    destruct (negb _); [discriminate|]. rewrite En, En', !bind_Ok in H. destruct (Z.ltb_spec (Z.of_nat (length ds)) (n + n' - 1)); [discriminate|lia].
Qed.

(** ** what the finished rounds share *)
Fixpoint below (n : nat) (e : expr) : Prop := match e with ERandom i => (i < n)%nat | ETimes a b => below n a /\ below n b end.
Lemma eval_ext v v' n e : (forall i, (i < n)%nat -> v i = v' i) -> below n e -> eval v e = eval v' e.
Proof. intros H. induction e as [i|a IHa b IHb]; cbn [below eval]; [apply H|]. intros [Ha Hb]. rewrite IHa, IHb by assumption. reflexivity. Qed.
Lemma below_S n e : below n e -> below (S n) e.
Proof. induction e as [i|a IHa b IHb]; cbn [below]; [lia|]. intros [Ha Hb]. auto. Qed.
Definition shares_it (v : nat -> Fq) (en : entry) : Prop :=
  en_nodes en <= 2^63 /\ exists po mo, rinv (Z.to_nat (en_nodes en)) (en_th en) (en_masked en) po mo (en_round en) /\ pev po fzero = eval v (en_expr en).
Definition su_fits (su : setup) : Prop := su_keys su /\ Z.of_nat (length (su_sk su)) = su_receivers su.
Lemma su_fits_eq su su' : su_eq su su' -> su_fits su -> su_fits su'.
Proof. intros (E1 & E2 & E3 & E4 & E5). unfold su_fits, su_keys. rewrite E2, E4, E5. auto. Qed.
Lemma shares_it_ext v v' n en : (forall i, (i < n)%nat -> v i = v' i) -> below n (en_expr en) -> shares_it v en -> shares_it v' en.
Proof. intros H B (N & po & mo & R & E). split; [exact N|]. exists po, mo. split; [exact R|]. rewrite E. apply (eval_ext v v' n); assumption. Qed.
Theorem runs_inv su l : runs cbor_cm su l -> su_fits su /\ (forall en, In en l -> below (length l) (en_expr en)) /\ exists v, forall en, In en l -> shares_it v en.
Proof.
  intros H. induction H as [n th seed su Hn E|su l dealers nc r su' _ IH Hd E|su l en dealers nc r su' _ IH Hin Hm E|su l en dealers nc r su' _ IH Hin Hm E
    |su l en en' dealers nc r su' _ IH Hin Hin' Hm Hm' E|su l s su' _ IH E|su l th _ IH|su l k su' _ IH E].
  - assert (L : Z.of_nat (length (su_sk su)) = su_receivers su).
    { unfold new_setup in E. apply bind_inv in E. destruct E as (rn & _ & E). destruct (fill_uint8 rn (repeat 0 32)) as [ad rn1].
      apply bind_inv in E. destruct E as (m & Em & E). apply bind_inv in E. destruct E as (k & Ek & E). injection E as <-. cbn [su_sk su_receivers].
      unfold go_make in Em. destruct (Z.ltb_spec n 0); [discriminate|]. injection Em as <-.
      destruct (random_scalars_cases (Z.to_nat n) rn1) as [(l & rn2 & E & Ll)|E]; [|rewrite E in Ek; discriminate]. rewrite E in Ek. injection Ek as <-. cbn [fst]. lia. }
    apply (new_setup_inv _ _ _ _ Hn) in E. destruct E as (K & _). split; [split; [exact K|exact L]|]. split; [intros en []|]. exists (fun _ => fzero). intros en [].
  - destruct IH as (F & B & v & Hv). pose proof F as [K L]. destruct (random_inv HX cbor_cm su dealers nc r su' K Hd E) as (Q & po & mo & R).
    split; [apply (su_fits_eq _ _ Q F)|]. cbn [length]. split.
    + intros en [<-|Hin]; [cbn; lia|apply below_S, B, Hin].
    + set (v' := fun i => if Nat.eqb i (length l) then pev po fzero else v i). exists v'. intros en [<-|Hin].
      * split; [cbn [en_nodes]; destruct K; lia|]. exists po, mo. split; [exact R|]. cbn [en_expr eval]. unfold v'. rewrite Nat.eqb_refl. reflexivity.
      * apply (shares_it_ext v v' (length l)); [|apply B, Hin|apply Hv, Hin]. intros i Hi. unfold v'. destruct (Nat.eqb_spec i (length l)); [lia|reflexivity].
  - destruct IH as (F & B & v & Hv). pose proof F as [K L]. destruct (Hv en Hin) as (N & po & mo & R & Ev). rewrite Hm in R.
    destruct (reshare_inv HX cbor_cm su (Z.to_nat (en_nodes en)) _ po mo (en_round en) dealers nc r su' K ltac:(lia) R E) as (Q & po' & mo' & R' & Es & _).
    split; [apply (su_fits_eq _ _ Q F)|]. cbn [length]. split.
    + intros en' [<-|Hin']; [apply below_S, (B en Hin)|apply below_S, B, Hin'].
    + exists v. intros en' [<-|Hin']; [|apply Hv, Hin']. split; [cbn [en_nodes]; destruct K; lia|]. exists po', mo'. split; [exact R'|]. cbn [en_expr]. rewrite Es. exact Ev.
  - destruct IH as (F & B & v & Hv). pose proof F as [K L]. destruct (Hv en Hin) as (N & po & mo & R & Ev). rewrite Hm in R.
    destruct (reshare_unmasked_inv su (Z.to_nat (en_nodes en)) _ po mo (en_round en) dealers nc r su' K ltac:(lia) R E) as (Q & po' & mo' & R' & Es).
    split; [apply (su_fits_eq _ _ Q F)|]. cbn [length]. split.
    + intros en' [<-|Hin']; [apply below_S, (B en Hin)|apply below_S, B, Hin'].
    + exists v. intros en' [<-|Hin']; [|apply Hv, Hin']. split; [cbn [en_nodes]; destruct K; lia|]. exists po', mo'. split; [exact R'|]. cbn [en_expr]. rewrite Es. exact Ev.
  - destruct IH as (F & B & v & Hv). pose proof F as [K L]. destruct (Hv en Hin) as (N & po & mo & R & Ev). rewrite Hm in R.
    destruct (Hv en' Hin') as (N' & po1 & mo1 & R1 & Ev1). rewrite Hm' in R1.
    destruct (multiply_inv2 su _ _ (Z.to_nat (en_nodes en')) _ po mo po1 mo1 (en_round en) (en_round en') dealers nc r su' K ltac:(lia) R R1 E) as (Q & po' & mo' & R' & Es).
    split; [apply (su_fits_eq _ _ Q F)|]. cbn [length]. split.
    + intros en0 [<-|Hin0]; [cbn [en_expr below]; split; apply below_S, B; assumption|apply below_S, B, Hin0].
    + exists v. intros en0 [<-|Hin0]; [|apply Hv, Hin0]. split; [cbn [en_nodes]; destruct K; lia|]. exists po', mo'. split; [exact R'|]. cbn [en_expr eval]. rewrite Es, Ev, Ev1. reflexivity.
  - destruct IH as (F & B & V). split; [|auto]. unfold next_dealing_seed in E. apply bind_inv in E. destruct E as (s' & _ & E). injection E as _ <-. exact F.
  - exact IH.
  - destruct IH as (F & B & V). split; [|auto]. unfold remove_nodes in E. destruct F as [[Kp Kl] L].
    destruct (_ || _) eqn:Eb; [discriminate|]. apply orb_false_iff in Eb. destruct Eb as [E1 E2]. apply Z.ltb_ge in E1, E2. injection E as <-.
    rewrite Kp, map_length in E2. split; [split|]; cbn [su_pk su_sk su_receivers].
    + rewrite Kp. apply firstn_map.
    + rewrite firstn_length. lia.
    + rewrite firstn_length. lia.
Qed.
End Dynamic.
