(** C59: complete protocol runs end in signatures that textbook ECDSA accepts. *)
From Coq Require Import ZArith Lia Bool String List.
From Verif Require Import Base BaseFacts Zmod Fields ModelScalar ModelXmd ModelRo SpecPoly ModelPoly ProofPoly ModelGroup GroupFacts SpecGroup ModelCommit
  ModelZk ModelMega ModelDealing SpecDealing ProofDealing ProofTranscript ModelComplaint ModelKey ModelSign SpecSign ProofSign PropKey PropSign ModelProtocol ProofProtocol ProofHonest ProofRun.
From Verif Require Toy.
Import ListNotations.
Open Scope Z_scope.

(** C59: any at least [th] of the signature shares that the nodes compute after
    a finished setup, with [nc] corrupted dealings in every round, combine; the
    signature, unless degenerate, passes Verify and is an ECDSA signature of the
    message's SHA-256 under the decoded derived public key *)
Theorem C59_run_ends_in_ecdsa_signature :
  forall (X : Oracles) (HX : oracles_ok X) (GO : Grp) (GL : GrpLaws GO) (cbor_cm : commitment -> bytes)
    (n th nc : Z) (seed : bytes) s pa message beacon shares sub,
  n <= 2^63 -> new_sig_setup cbor_cm n th nc seed = Ok s -> generate_shares s pa message beacon = Ok shares ->
  incl sub shares -> NoDup (map fst sub) -> th <= Z.of_nat (length sub) ->
  exists sg, generate_signature s pa message beacon sub = Ok sg /\
    (sg_r sg <> fzero -> sg_s sg <> fzero ->
      exists pk, verify_signature s pa message beacon sg = Ok pk /\
        spec_ecdsa pk (bits2int (sha256 message)) (sg_r sg) (sg_s sg)).
Proof.
  intros X HX GO GL cb n th nc seed s pa message beacon shares sub Hn Hs Hg Hi Nd Hl.
  apply (new_sig_setup_inv HX cb _ _ _ _ _ Hn) in Hs.
  destruct Hs as (px & mx & pk & mk & pl & ml & pxl & mxl & pkl & mkl & Et & En & Hp & R1 & R2 & R3 & R4 & R5 & C2 & S4 & S5).
  unfold generate_shares in Hg. rewrite En in Hg. destruct (Z.ltb_spec n 0); [lia|]. rewrite bind_Ok in Hg.
  destruct (share_loop_inv s pa _ _ _ _ _ _ _ _ _ _ R3 R4 R5 _ _ Hg) as [Kf Hs].
  destruct (rinv_constant _ _ _ _ _ R1) as [Ck _]. destruct (rinv_constant _ _ _ _ _ R2) as [_ (lk & Cl)]. rewrite Cl in C2.
  assert (Cs : consistent (rd_transcript (ps_key s)) (rd_transcript (ps_kappa s)) pl pkl pxl (pev px fzero) (pev pk fzero) (pev pl fzero)).
  { split; [exact Ck|]. split; [exists lk; exact C2|]. rewrite !pev_spec. auto. }
  assert (K : keys_ok sub).
  { split; [|exact Nd]. apply Forall_forall. intros k Hin. apply in_map_iff in Hin. destruct Hin as ([k' e] & <- & Hin). apply Hi in Hin.
    apply (in_map fst) in Hin. rewrite Kf in Hin. apply in_map_iff in Hin. destruct Hin as (i & <- & Hin). apply in_seq in Hin. unfold int64_ok. lia. }
  assert (L : forall m (po mo : poly) r, rinv (Z.to_nat n) th m po mo r -> Z.of_nat (length po) <= th).
  { intros m po mo r (Hth & l & _ & _ & (_ & Lp & _) & _). lia. }
  assert (Hth : 0 < th) by (destruct R1 as [R1 _]; exact R1).
  destruct (C50_threshold_signature_is_ecdsa X HX GO GL pa (sha256 message) beacon _ _ th sub pl pkl pxl _ _ _ Cs K Hth Hl
    (L _ _ _ _ R3) (L _ _ _ _ R5) (L _ _ _ _ R4)) as (pub & ch & sg & Epk & Ec & V).
  { intros i e Hin. apply Hs, Hi, Hin. }
  { unfold blen. rewrite (sha256_len X HX). reflexivity || lia. }
  exists sg. unfold generate_signature. rewrite Et. split; [exact Ec|]. intros Nr Ns. destruct (V Nr Ns) as [V1 V2]. exists pub. split; [|exact V2].
  unfold verify_signature, public_key. rewrite V1, bind_Ok, Ck, bind_Ok.
  change (mul_by_g (pev px fzero)) with (smul (pev px fzero) genG). rewrite Epk, bind_Ok. cbn [fst]. apply deser_ser.
Qed.
Print Assumptions C59_run_ends_in_ecdsa_signature.

(** a collision of the proof of possession's hashes: two dealers with one base
    point, or two statements with one challenge *)
Definition pop_collision {X : Oracles} {GO : Grp} (ad : bytes) (n : Z) : Prop :=
  (exists t eph k B, 0 <= k < n /\ pop_base t ad k eph = Ok B /\ pop_base t ad (k + 1) eph = Ok B) \/
  (exists h h' gx hx r1 r2 r1' r2' c, h <> h' /\ dlog_challenge genG h gx hx r1 r2 ad = Ok c /\ dlog_challenge genG h' gx hx r1' r2' ad = Ok c).
Section Collision.
Context {X : Oracles} (HX : oracles_ok X) {GO : Grp} {GL : GrpLaws GO}.
Lemma check_validity_pop m rc ad k : m_check_validity m rc ad k = Ok tt -> m_verify_pop m ad k = Ok tt.
Proof. unfold m_check_validity. intros V. apply bind_inv in V. destruct V as (x & _ & V). destruct (negb (x =? rc)); [discriminate V|]. exact V. Qed.
Lemma public_pop d op th k n ad : publicly_verify d op th k n ad = Ok tt -> m_verify_pop (d_ct d) ad k = Ok tt.
Proof.
  unfold publicly_verify. intros V. apply bind_inv in V. destruct V as (m & _ & V). destruct (negb (m =? th)); [discriminate V|].
  apply bind_inv in V. destruct V as (u & _ & V). apply bind_inv in V. destruct V as ([] & V & _). exact (check_validity_pop _ _ _ _ V).
Qed.
Lemma dealt_pop s th rc k ad d : dealt s th rc k ad d -> m_verify_pop (d_ct d) ad k = Ok tt.
Proof.
  intros D. apply (check_validity_pop _ (Z.of_nat (length rc))). destruct s as [|x|x m|l r rm|]; [| | | |contradiction D].
  - destruct D as (? & ? & _ & _ & (? & ? & ? & ? & ? & _ & _ & _ & _ & _ & V1 & _) & _). exact V1.
  - destruct D as (? & _ & _ & (? & ? & ? & ? & ? & _ & _ & _ & _ & _ & V1 & _) & _). exact V1.
  - destruct D as (? & ? & _ & _ & (? & ? & ? & ? & ? & _ & _ & _ & _ & _ & V1 & _) & _). exact V1.
  - destruct D as (? & ? & ? & _ & _ & _ & (? & ? & ? & ? & ? & _ & _ & _ & _ & _ & V1 & _) & _). exact V1.
Qed.
Lemma other_nil seed th rc k ad d : new_dealing SOther seed th rc k ad = Ok d -> d_ct d = MNil.
Proof.
  unfold new_dealing. destruct (_ || _); [discriminate|]. intros E. apply bind_inv in E. destruct E as (? & _ & E). apply bind_inv in E. destruct E as (? & _ & E).
  apply bind_inv in E. destruct E as (? & _ & E). apply Ok_inj in E. subst d. reflexivity.
Qed.
Lemma dlog_accepts pf g h gx hx ad : dlog_verify pf g h gx hx ad = Ok tt -> exists r1 r2, dlog_challenge g h gx hx r1 r2 ad = Ok (dl_challenge pf).
Proof.
  unfold dlog_verify. destruct (dlog_recover g h gx hx pf) as [r1 r2]. intros W. apply bind_inv in W. destruct W as (c & C & W).
  apply guard_inv in W. apply feqb_eq in W. rewrite W in C. exists r1, r2. exact C.
Qed.
Lemma two_pops t ad n k e p pf : 0 <= k < n -> verify_pop t ad k e p pf = Ok tt -> verify_pop t ad (k + 1) e p pf = Ok tt -> pop_collision ad n.
Proof.
  intros Hk W1 W2. unfold verify_pop in W1, W2. apply bind_inv in W1. destruct W1 as (B & E1 & W1). apply bind_inv in W2. destruct W2 as (B' & E2 & W2).
  apply dlog_accepts in W1. apply dlog_accepts in W2. destruct W1 as (r1 & r2 & W1). destruct W2 as (r1' & r2' & W2). unfold pop_collision.
  destruct (g_dec B B') as [Eb|Nb].
  - left. exists t, e, k, B. split; [exact Hk|]. split; [exact E1|]. rewrite Eb. exact E2.
  - right. exists B, B', e, p, r1, r2, r1', r2', (dl_challenge pf). split; [exact Nb|]. split; [exact W1|exact W2].
Qed.
Lemma misattributed_collision th n pks ad : misattributed th n pks ad -> pop_collision ad n.
Proof.
  intros (s & sd & k & d & op & Hk & E & V). apply public_pop in V.
  assert (Hs : s <> SOther). { intros Q. rewrite Q in E. apply other_nil in E. rewrite E in V. discriminate V. }
  destruct (new_dealing_inv HX _ _ _ _ _ _ _ Hs E) as [_ D]. apply dealt_pop in D.
  destruct (d_ct d) as [e p pf c|e p pf c|]; [| |discriminate D]; apply (two_pops _ _ _ _ _ _ _ Hk D V).
Qed.
End Collision.

(** C59: with honest dealers, at least 2*th-1 nodes and any seed the setup does
    not fail; the drivers' own negative test panics only at a collision, and
    rejection sampling is the only source of nontermination *)
Theorem C59_honest_setup_completes :
  forall (X : Oracles) (HX : oracles_ok X) (GO : Grp) (GL : GrpLaws GO) (cbor_cm : commitment -> bytes) (n th : Z) (seed : bytes),
  0 < th -> 2 * th - 1 <= n -> n <= 2^63 -> blen seed = 32 ->
  (exists s, new_sig_setup cbor_cm n th 0 seed = Ok s) \/ new_sig_setup cbor_cm n th 0 seed = Diverge \/
  (new_sig_setup cbor_cm n th 0 seed = Panic /\ exists su, new_setup n th seed = Ok su /\ pop_collision (su_ad su) n).
Proof.
  intros X HX GO GL cb n th seed H1 H2 H3 H4.
  pose proof (new_sig_setup_ok HX cb n th seed H1 ltac:(lia) H3 H4) as H.
  destruct (new_sig_setup cb n th 0 seed) as [s| | |]; cbn [ok3] in H; [left; eauto|contradiction| |auto].
  right. right. split; [reflexivity|]. destruct H as (su & E & M). exists su. split; [exact E|].
  apply (new_setup_inv _ _ _ _ H3) in E. destruct E as (_ & _ & N & _). rewrite <- N. apply (misattributed_collision HX _ _ _ _ M).
Qed.
(** and then every node computes its share *)
Theorem C59_all_nodes_get_shares :
  forall (X : Oracles) (HX : oracles_ok X) (GO : Grp) (GL : GrpLaws GO) (cbor_cm : commitment -> bytes)
    (n th nc : Z) (seed : bytes) s pa message beacon,
  n <= 2^63 -> new_sig_setup cbor_cm n th nc seed = Ok s ->
  (exists shares, generate_shares s pa message beacon = Ok shares /\ map fst shares = map Z.of_nat (seq 0 (Z.to_nat n))) \/
  generate_shares s pa message beacon = Diverge.
Proof.
  intros X HX GO GL cb n th nc seed s pa message beacon Hn Hs.
  apply (new_sig_setup_inv HX cb _ _ _ _ _ Hn) in Hs.
  destruct Hs as (px & mx & pk & mk & pl & ml & pxl & mxl & pkl & mkl & Et & En & Hp & R1 & R2 & R3 & R4 & R5 & C2 & S4 & S5).
  unfold generate_shares. rewrite En. destruct (Z.ltb_spec n 0); [lia|]. rewrite bind_Ok.
  assert (Hh : blen (sha256 message) <= 64) by (unfold blen; rewrite (sha256_len X HX); lia).
  pose proof (share_loop_ok HX s pa (sha256 message) beacon _ _ _ _ _ _ _ _ _ _ _ _ Hh R1 R2 C2 R3 R4 R5 (seq 0 (Z.to_nat n)) ltac:(intros i Hi; apply in_seq in Hi; lia)) as Hl.
  destruct (share_loop s pa (sha256 message) beacon (seq 0 (Z.to_nat n))) as [r| | |]; cbn [ok3] in Hl; [left; eauto|contradiction|contradiction|right; reflexivity].
Qed.
Print Assumptions C59_honest_setup_completes.
Print Assumptions C59_all_nodes_get_shares.

(** test values, not code of /repo: primitives with short outputs, so that a run
    evaluates quickly *)
#[local] Instance exX : Oracles := {
  sha256 m := let s := fold_left Z.add m (blen m) in repeat 0 30 ++ [s / 256 mod 256; s mod 256];
  hmac512 k m := let s := fold_left Z.add (k ++ m) 5 in repeat 0 31 ++ [s mod 256] ++ repeat 0 30 ++ [3; s mod 200];
  keystream k i := if Nat.eqb (i mod 32) 31 then (fold_left Z.add k 1 + Z.of_nat i) mod 256 else 0;
  rand_fuel := 4
}.
Lemma exX_ok : oracles_ok exX.
Proof.
  assert (B0 : forall n, bytes_ok (repeat 0 n)) by (intros n; apply Forall_forall; intros x Hx; apply repeat_spec in Hx; subst x; unfold byte_ok; lia).
  assert (M : forall a m, 0 < m <= 256 -> byte_ok (a mod m)) by (intros a m H; unfold byte_ok; pose proof (Z.mod_pos_bound a m); lia).
  split; intros; cbn [sha256 hmac512 keystream exX].
  - rewrite app_length, repeat_length. reflexivity.
  - apply Forall_app. split; [apply B0|]. repeat constructor; apply M; lia.
  - rewrite !app_length, !repeat_length. reflexivity.
  - apply Forall_app. split; [apply B0|]. apply Forall_app. split; [repeat constructor; apply M; lia|]. apply Forall_app. split; [apply B0|].
    constructor; [unfold byte_ok; lia|constructor; [apply M; lia|constructor]].
  - destruct (Nat.eqb _ _); [apply M; lia|unfold byte_ok; lia].
Qed.
(** test values: a run, as far as the hypotheses of the theorems go *)
#[local] Existing Instance Toy.toyG.
Definition ex_setup := new_sig_setup (fun _ => []) 1 1 0 (map Z.of_nat (seq 1 32)).
Definition ex_shares s := generate_shares s [[1]; [2]] [1; 2; 3] [4].
Definition ex_sign s sh := generate_signature s [[1]; [2]] [1; 2; 3] [4] sh.
Definition ex_nonzero sg := negb (feqb (sg_r sg) fzero) && negb (feqb (sg_s sg) fzero).
Definition ex_check (r : res signature) : bool := match r with Ok sg => ex_nonzero sg | _ => false end.
Example C59_ex : ex_check (do s <- ex_setup; do sh <- ex_shares s; ex_sign s sh) = true.
Proof. vm_compute. reflexivity. Qed.
