(** C101: a dealing corrupted for some receivers, or for all of them. *)
From Coq Require Import ZArith Lia Bool String List Ring.
From Verif Require Import Base BaseFacts Zmod Fields ModelScalar ProofScalar ModelXmd SpecXmd ModelRo ProofRand SpecPoly ModelPoly ProofPoly ModelGroup GroupFacts SpecGroup
  ModelCommit ProofCommit ModelZk ProofZk ModelMega ProofMega ModelDealing SpecDealing ProofDealing ProofTranscript ModelComplaint ProofComplaint
  ModelKey ModelSign ProofSign ModelProtocol ProofProtocol ProofCorrupt ModelCorruptAll PropDealing PropComplaint SpecPanic PropTamper PropDelivery PropSeed.
From Verif Require Import Toy ToyShort.
Import ListNotations.
Open Scope Z_scope.

Section Corrupt.
Context {X : Oracles} {GO : Grp} {GL : GrpLaws GO} (HX : oracles_ok X).

(** the receiver's entry is all that its decryption depends on *)
Lemma decrypt_entry_single e p pf ct ct' ad k j sk pk : length ct' = length ct -> nth_error ct' (Z.to_nat j) = nth_error ct (Z.to_nat j) ->
  m_decrypt (MSingle e p pf ct') ad k j sk pk = m_decrypt (MSingle e p pf ct) ad k j sk pk.
Proof. intros L E. unfold m_decrypt. cbn [m_verify_pop]. unfold decrypt_single_ss, index, nth_or_panic. rewrite E, L. reflexivity. Qed.
Lemma decrypt_entry_pair e p pf ct ct' ad k j sk pk : length ct' = length ct -> nth_error ct' (Z.to_nat j) = nth_error ct (Z.to_nat j) ->
  m_decrypt (MPair e p pf ct') ad k j sk pk = m_decrypt (MPair e p pf ct) ad k j sk pk.
Proof. intros L E. unfold m_decrypt. cbn [m_verify_pop]. unfold decrypt_pair_ss, index, nth_or_panic. rewrite E, L. reflexivity. Qed.

Lemma corrupt_spec d op th k n ad ts seed : publicly_verify d op th k n ad = Ok tt -> blen seed = 32 -> NoDup ts -> (forall t, In t ts -> 0 <= t < n) ->
  corrupt_dealing d ts seed = Diverge \/
  exists r rn d', random_scalar (mkrng seed 0) = Ok (r, rn) /\ corrupt_dealing d ts seed = Ok d' /\ d_cm d' = d_cm d /\ d_proof d' = d_proof d /\
    publicly_verify d' op th k n ad = Ok tt /\
    forall j s o, 0 <= j < n ->
      (~ In j ts -> read_by ad k d' (j, s) = read_by ad k d (j, s)) /\
      (In j ts -> read_by ad k d (j, s) = Ok o -> read_by ad k d' (j, s) = if feqb r fzero then Ok o else Err).
Proof.
  intros V Ls N Hr. pose proof (publicly_verify_inv _ _ _ _ _ _ V) as (_ & Nl & Rn & _ & K).
  unfold corrupt_dealing.
  assert (Cc : c_curve (d_cm d) = Ok tt).
  { unfold c_curve, c_points. unfold pts_of in Nl. destruct (unwrap (d_cm d)) as [l|l| | |]; try congruence; destruct l; try congruence; reflexivity. }
  rewrite Cc, bind_Ok, seed_rng_ok by exact Ls. rewrite bind_Ok.
  destruct (random_scalar_cases (mkrng seed 0)) as [(r & rn & Er)|Er]; rewrite Er; [|left; reflexivity]. rewrite bind_Ok. cbn [fst]. right. exists r, rn.
  assert (Kind : (exists e p pf c, d_ct d = MSingle e p pf c) \/ (exists e p pf c, d_ct d = MPair e p pf c)).
  { destruct op; [| | | |contradiction]; destruct K as (_ & K & _); eauto. }
  assert (Hit : forall ct' (l := unwrap (d_cm d)) j s o, m_decrypt (d_ct d) ad k j s (mul_by_g s) = Ok o -> c_check_opening (d_cm d) j o = Ok true ->
     m_decrypt ct' ad k j s (mul_by_g s) = Ok (shifted r fzero o) ->
     m_decrypt_and_check ct' (d_cm d) ad k j s (mul_by_g s) = if feqb r fzero then Ok o else Err).
  { intros ct' l j s o D C D'. unfold m_decrypt_and_check. rewrite D', bind_Ok, check_shifted; [|destruct o; auto|exact C]. rewrite bind_Ok.
    assert (Q : geqb (pedersen r fzero) gzero = feqb r fzero).
    { apply eq_true_iff_eq. rewrite geqb_iff, feqb_eq. split; intros H.
      - apply mul_by_g_inj. transitivity (pedersen r fzero); [gring|]. rewrite H. gring.
      - subst r. gring. }
    rewrite Q. destruct (feqb r fzero) eqn:Z0; [|reflexivity]. apply feqb_eq in Z0. subst r. f_equal.
    destruct o as [a|a b| | |]; cbn [shifted]; try reflexivity; f_equal; ring. }
  destruct d as [ct0 cm z]. cbn [d_ct d_cm d_proof] in *.
  destruct Kind as [(e & p & pf & c & ->)|(e & p & pf & c & ->)]; cbn [m_recipients] in Rn; apply Ok_inj in Rn.
  - destruct (update_all_ok ts (fun c0 : Fq => fadd c0 r) N c) as (c' & -> & Lc' & Hn); [intros t Ht; rewrite Rn; apply Hr, Ht|].
    rewrite bind_Ok. eexists. split; [reflexivity|]. split; [reflexivity|]. split; [reflexivity|]. split; [reflexivity|].
    split; [rewrite (public_other_single _ _ _ _ _ _ _ _ _ _ _ _ Lc'); exact V|].
    intros j s o Hj. specialize (Hn (Z.to_nat j)). rewrite Z2Nat.id in Hn by lia. unfold read_by. cbn [fst snd d_ct d_cm]. split.
    + intros Ni. destruct (mem j ts) eqn:M; [apply mem_in in M; contradiction|]. unfold m_decrypt_and_check. rewrite (decrypt_entry_single e p pf c c' ad k j s _ Lc' Hn). reflexivity.
    + intros Hin H. apply mem_in in Hin. rewrite Hin in Hn. apply m_decrypt_and_check_inv in H. destruct H as [D C].
      apply (Hit _ _ _ _ D C). destruct (nth_error c (Z.to_nat j)) as [c0|] eqn:E0; [|apply nth_error_None in E0; lia]. cbn [option_map] in Hn.
      destruct o as [v|v m| | |]; try (unfold m_decrypt in D; apply bind_inv in D; destruct D as (u & _ & D); apply bind_inv in D; destruct D as (w & _ & D); discriminate D).
      rewrite <- (Z2Nat.id j) in D by lia. pose proof (decrypt_shift_single HX _ _ _ _ _ _ _ _ _ _ _ _ _ D Lc' E0 Hn) as Q. rewrite Z2Nat.id in Q by lia.
      rewrite Q. cbn [shifted]. do 2 f_equal. ring.
  - destruct (update_all_ok ts (fun c0 : Fq * Fq => (fadd (fst c0) r, snd c0)) N c) as (c' & -> & Lc' & Hn); [intros t Ht; rewrite Rn; apply Hr, Ht|].
    rewrite bind_Ok. eexists. split; [reflexivity|]. split; [reflexivity|]. split; [reflexivity|]. split; [reflexivity|].
    split; [rewrite (public_other_pair _ _ _ _ _ _ _ _ _ _ _ _ Lc'); exact V|].
    intros j s o Hj. specialize (Hn (Z.to_nat j)). rewrite Z2Nat.id in Hn by lia. unfold read_by. cbn [fst snd d_ct d_cm]. split.
    + intros Ni. destruct (mem j ts) eqn:M; [apply mem_in in M; contradiction|]. unfold m_decrypt_and_check. rewrite (decrypt_entry_pair e p pf c c' ad k j s _ Lc' Hn). reflexivity.
    + intros Hin H. apply mem_in in Hin. rewrite Hin in Hn. apply m_decrypt_and_check_inv in H. destruct H as [D C].
      apply (Hit _ _ _ _ D C). destruct (nth_error c (Z.to_nat j)) as [c0|] eqn:E0; [|apply nth_error_None in E0; lia]. cbn [option_map] in Hn.
      destruct o as [v|v m| | |]; try (unfold m_decrypt in D; apply bind_inv in D; destruct D as (u & _ & D); apply bind_inv in D; destruct D as (w & _ & D); discriminate D).
      rewrite <- (Z2Nat.id j) in D by lia. pose proof (decrypt_shift_pair HX _ _ _ _ _ _ _ _ _ _ _ _ _ _ D Lc' E0 Hn) as Q. rewrite Z2Nat.id in Q by lia.
      cbn [fst snd] in Q. rewrite Q. cbn [shifted]. do 2 f_equal; ring.
Qed.
End Corrupt.

(** corrupting any publicly valid dealing: what is public stays, the receivers that
    are not targets notice nothing, and the targets that could read it cannot any
    more, unless the random scalar was zero *)
Theorem C101_corruption_is_exact :
  forall (X : Oracles) (HX : oracles_ok X) (GO : Grp) (GL : GrpLaws GO) d op th k n ad ts seed,
  publicly_verify d op th k n ad = Ok tt -> bare (d_cm d) -> blen seed = 32 -> NoDup ts -> (forall t, In t ts -> 0 <= t < n) ->
  corrupt_dealing d ts seed = Diverge \/
  exists r rn d', random_scalar (mkrng seed 0) = Ok (r, rn) /\ corrupt_dealing d ts seed = Ok d' /\ d_cm d' = d_cm d /\ d_proof d' = d_proof d /\
    publicly_verify d' op th k n ad = Ok tt /\
    forall j s o, 0 <= j < n ->
      (~ In j ts -> read_by ad k d' (j, s) = read_by ad k d (j, s)) /\
      (In j ts -> read_by ad k d (j, s) = Ok o -> read_by ad k d' (j, s) = if feqb r fzero then Ok o else Err).
Proof. intros X HX GO GL d op th k n ad ts seed V _ Ls N Hr. exact (corrupt_spec HX d op th k n ad ts seed V Ls N Hr). Qed.

(** a readable dealing corrupted for all its receivers is readable by none of
    them; each has a complaint that is accepted, and nobody gets a share of any
    transcript that contains the dealing *)
Theorem C101_corrupted_for_all :
  forall (X : Oracles) (HX : oracles_ok X) (GO : Grp) (GL : GrpLaws GO) d op th k n ad seed r rn nodes,
  publicly_verify d op th k n ad = Ok tt -> bare (d_cm d) -> blen seed = 32 -> random_scalar (mkrng seed 0) = Ok (r, rn) -> r <> fzero ->
  (forall j s, In (j, s) nodes -> 0 <= j < n /\ exists o, read_by ad k d (j, s) = Ok o) ->
  exists d', corrupt_for_all d seed = Ok d' /\ publicly_verify d' op th k n ad = Ok tt /\
    openings_of ad k d' nodes = [] /\ left_out ad k d' nodes = nodes /\
    (forall j s sd c, In (j, s) nodes -> new_complaint sd d' k j s (mul_by_g s) ad = Ok c -> complaint_verify c d' k j (mul_by_g s) ad = Ok tt) /\
    (forall j s ds tc o, In (j, s) nodes -> In (k, d') ds -> from_dealings ds tc ad j s (mul_by_g s) <> Ok o).
Proof.
  intros X HX GO GL d op th k n ad seed r rn nodes V _ Ls Er Nr Hn.
  pose proof (publicly_verify_inv _ _ _ _ _ _ V) as (_ & _ & Rn & _).
  set (all := map Z.of_nat (seq 0 (Z.to_nat n))).
  assert (All : forall t, In t all <-> 0 <= t < n).
  { intros t. unfold all. rewrite in_map_iff. split.
    - intros (i & <- & I). apply in_seq in I. lia.
    - intros Ht. exists (Z.to_nat t). split; [lia|]. apply in_seq. lia. }
  assert (N : NoDup all) by (unfold all; apply FinFun.Injective_map_NoDup; [intros a b; lia|apply seq_NoDup]).
  unfold corrupt_for_all, all_recipients. rewrite Rn, !bind_Ok. fold all.
  destruct (corrupt_spec HX d op th k n ad all seed V Ls N (fun t => proj1 (All t))) as [D|(r' & rn' & d' & Er' & D & Ecm & Epf & V' & H)].
  { exfalso. unfold corrupt_dealing in D. rewrite seed_rng_ok in D by exact Ls.
    destruct (c_curve (d_cm d)) as [[]| | |] eqn:Ec; try discriminate D.
    - rewrite !bind_Ok, Er, bind_Ok in D. destruct (d_ct d) as [e p pf c|e p pf c|]; try discriminate D.
      + destruct (update_all_ok all (fun c0 : Fq => fadd c0 (fst (r, rn))) N c) as (c' & E & _); [|rewrite E in D; discriminate D].
        intros t Ht. apply All in Ht. cbn [m_recipients] in Rn. apply Ok_inj in Rn. lia.
      + destruct (update_all_ok all (fun c0 : Fq * Fq => (fadd (fst c0) (fst (r, rn)), snd c0)) N c) as (c' & E & _); [|rewrite E in D; discriminate D].
        intros t Ht. apply All in Ht. cbn [m_recipients] in Rn. apply Ok_inj in Rn. lia.
    - unfold c_curve, c_points in Ec. destruct (unwrap (d_cm d)) as [[|]|[|]| | |]; discriminate Ec. }
  assert (r' = r) as -> by congruence. exists d'. split; [exact D|]. split; [exact V'|].
  assert (Bad : forall j s, In (j, s) nodes -> read_by ad k d' (j, s) = Err).
  { intros j s I. destruct (Hn j s I) as [Hj [o Ho]]. destruct (H j s o Hj) as [_ Q]. rewrite (Q (proj2 (All j) Hj) Ho).
    destruct (feqb r fzero) eqn:F; [apply feqb_eq in F; contradiction|reflexivity]. }
  split; [|split; [|split]].
  - unfold openings_of. clear -Bad. induction nodes as [|[j s] nodes IH]; [reflexivity|]. cbn [flat_map]. rewrite (Bad j s (or_introl eq_refl)). cbn [app].
    apply IH. intros j' s' I. apply Bad. right. exact I.
  - unfold left_out. clear -Bad. induction nodes as [|[j s] nodes IH]; [reflexivity|]. cbn [filter]. rewrite (Bad j s (or_introl eq_refl)). cbn [is_ok negb]. f_equal.
    apply IH. intros j' s' I. apply Bad. right. exact I.
  - intros j s sd c I Nc. apply (C46_honest_complaint_iff X HX GO GL d' op th k n ad j s sd c V'); [apply (Hn j s I)|exact Nc|]. exact (Bad j s I).
  - intros j s ds tc o I Id E. unfold from_dealings in E. apply bind_inv in E. destruct E as (os & E & _).
    assert (F : m_decrypt_and_check (d_ct d') (d_cm d') ad k j s (mul_by_g s) = Err) by exact (Bad j s I). clear -E F Id.
    revert os E. induction ds as [|[k0 d0] ds IH]; [destruct Id|]. intros os E. cbn [mapM fst snd] in E. apply bind_inv in E. destruct E as (a & Ea & E).
    apply bind_inv in E. destruct E as (os' & Eo & _). destruct Id as [Id|Id]; [|exact (IH Id _ Eo)]. injection Id as -> ->.
    rewrite F in Ea. discriminate Ea.
Qed.
Print Assumptions C101_corruption_is_exact.
Print Assumptions C101_corrupted_for_all.


(** test values: the three dealings of [PropDelivery.ex_nodes] corrupted for everybody *)
#[local] Existing Instance shortX.
#[local] Existing Instance toyG.
Definition ex_seed : bytes := map Z.of_nat (seq 1 32).
Definition ex_d : res dealing := new_dealing SRandom [1] 2 (map (fun n => mul_by_g (snd n)) ex_nodes) 0 (str "ad").
Definition ex_ok (d : dealing) : bool :=
  is_ok (publicly_verify d TRandom 2 0 3 (str "ad")) && match d_cm d with CPedersen _ => true | _ => false end &&
  forallb (fun n => is_ok (read_by (str "ad") 0 d n)) ex_nodes &&
  match random_scalar (mkrng ex_seed 0) with Ok (r, _) => negb (feqb r fzero) | _ => false end.
Example C101_ex : exists d r rn, publicly_verify d TRandom 2 0 3 (str "ad") = Ok tt /\ bare (d_cm d) /\ blen ex_seed = 32 /\
  random_scalar (mkrng ex_seed 0) = Ok (r, rn) /\ r <> fzero /\ (forall j s, In (j, s) ex_nodes -> 0 <= j < 3 /\ exists o, read_by (str "ad") 0 d (j, s) = Ok o) /\ ex_nodes <> [].
Proof.
  assert (B : match ex_d with Ok d => ex_ok d | _ => false end = true) by (vm_compute; reflexivity).
  destruct ex_d as [d| | |]; try discriminate B. unfold ex_ok in B. apply andb_true_iff in B. destruct B as [B B4]. apply andb_true_iff in B. destruct B as [B B3].
  apply andb_true_iff in B. destruct B as [B1 B2]. rewrite forallb_forall in B3. destruct (random_scalar (mkrng ex_seed 0)) as [[r rn]| | |]; try discriminate B4.
  exists d, r, rn. split; [destruct (publicly_verify d TRandom 2 0 3 (str "ad")) as [[]| | |]; [reflexivity|discriminate B1..]|].
  split; [destruct (d_cm d); try discriminate B2; exact I|]. split; [reflexivity|]. split; [reflexivity|].
  split; [intros ->; rewrite feqb_refl in B4; discriminate B4|]. split; [|discriminate]. intros j s I. split.
  - cbn in I. destruct I as [I|[I|[I|[]]]]; injection I as <- _; lia.
  - specialize (B3 _ I). destruct (read_by (str "ad") 0 d (j, s)) as [o| | |]; try discriminate B3. eauto.
Qed.
