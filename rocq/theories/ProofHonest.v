(** Transcripts made from dealings that NewIDkgDealingInternal returned. *)
From Coq Require Import ZArith Lia Bool String List Ring Field.
From Verif Require Import Base BaseFacts Zmod Fields ModelScalar ProofScalar ModelXmd ModelRo SpecPoly ModelPoly ProofPoly
  ProofLagrange ProofSecrecy ModelGroup GroupFacts SpecGroup ModelCommit ProofCommit ModelZk ProofZk ModelMega ProofMega
  ModelDealing SpecDealing ProofDealing ProofTranscript.
Import ListNotations.
Open Scope Z_scope.

Section Honest.
Context {X : Oracles} (HX : oracles_ok X) {GO : Grp} {GL : GrpLaws GO}.

Lemma new_dealing_inv sh seed num rc d ad dl : sh <> SOther -> new_dealing sh seed num rc d ad = Ok dl ->
  0 < num <= Z.of_nat (length rc) /\ dealt sh num rc d ad dl.
Proof.
  intros Hs E.
  assert (R : 0 < num <= Z.of_nat (length rc)).
  { destruct (Z.lt_trichotomy num 0) as [H|[H|H]].
    - destruct (new_dealing_negative HX sh seed num rc d ad Hs H) as [E'|E']; rewrite E in E'; discriminate.
    - rewrite new_dealing_bad_threshold in E by (left; exact H). discriminate.
    - destruct (Z.le_gt_cases num (Z.of_nat (length rc))); [lia|]. rewrite new_dealing_bad_threshold in E by (right; lia). discriminate. }
  split; [exact R|]. destruct (new_dealing_cases HX sh seed num rc d ad Hs R) as [(dl' & E' & D)|E']; rewrite E in E'; [|discriminate].
  injection E' as ->. exact D.
Qed.

(** the points of a dealt commitment *)
Lemma body_single_cm po num rc d ad ct cm : body_single po num rc d ad ct cm ->
  cm = CSimple (pts_of cm) /\ length (pts_of cm) = Z.to_nat num /\ commits (pts_of cm) po.
Proof. intros (e & p & pf & c & l & _ & -> & L & C & _). cbn. auto. Qed.
Lemma body_pair_cm po mo num rc d ad ct cm : body_pair po mo num rc d ad ct cm ->
  cm = CPedersen (pts_of cm) /\ length (pts_of cm) = Z.to_nat num /\ commits2 (pts_of cm) po mo.
Proof. intros (e & p & pf & c & l & _ & -> & L & C & _). cbn. auto. Qed.

Lemma dealt_random num rc d ad dl : dealt SRandom num rc d ad dl -> exists po mo,
  d_cm dl = CPedersen (pts_of (d_cm dl)) /\ length (pts_of (d_cm dl)) = Z.to_nat num /\ commits2 (pts_of (d_cm dl)) po mo /\
  length po = Z.to_nat num /\ length mo = Z.to_nat num.
Proof. intros (po & mo & L1 & L2 & B & _). apply body_pair_cm in B. destruct B as (U & L & C). exists po, mo. auto. Qed.
Lemma dealt_unmasked s num rc d ad dl : dealt (SReshareUnmasked s) num rc d ad dl -> exists po,
  d_cm dl = CSimple (pts_of (d_cm dl)) /\ length (pts_of (d_cm dl)) = Z.to_nat num /\ commits (pts_of (d_cm dl)) po /\
  length po = Z.to_nat num /\ nth 0 po fzero = s.
Proof. intros (po & L1 & E & B & _). apply body_single_cm in B. destruct B as (U & L & C). exists po. auto. Qed.
Lemma dealt_masked s m num rc d ad dl : dealt (SReshareMasked s m) num rc d ad dl -> exists po,
  d_cm dl = CSimple (pts_of (d_cm dl)) /\ length (pts_of (d_cm dl)) = Z.to_nat num /\ commits (pts_of (d_cm dl)) po /\
  length po = Z.to_nat num /\ nth 0 po fzero = s.
Proof. intros (po & z & L1 & E & B & _). apply body_single_cm in B. destruct B as (U & L & C). exists po. auto. Qed.
Lemma dealt_times l r rm num rc d ad dl : dealt (STimes l r rm) num rc d ad dl -> exists po mo,
  d_cm dl = CPedersen (pts_of (d_cm dl)) /\ length (pts_of (d_cm dl)) = Z.to_nat num /\ commits2 (pts_of (d_cm dl)) po mo /\
  length po = Z.to_nat num /\ length mo = Z.to_nat num /\ nth 0 po fzero = fmul l r.
Proof. intros (po & mo & z & L1 & L2 & E & B & _). apply body_pair_cm in B. destruct B as (U & L & C). exists po, mo. auto 10. Qed.


Lemma dealt_by_lengths sh th ds : dealt_by sh th ds -> (forall k, sh k <> SOther) -> ds <> [] ->
  0 < th /\ forall kd, In kd ds -> is_cm (d_cm (snd kd)) /\ Z.of_nat (length (dl_pts kd)) = th.
Proof.
  intros H Hs Hne.
  assert (A : forall k d, In (k, d) ds -> 0 < th /\ is_cm (d_cm d) /\ Z.of_nat (length (pts_of (d_cm d))) = th).
  { intros k d Hin. destruct (H k d Hin) as (seed & rc & ad & E). apply new_dealing_inv in E; [|apply Hs]. destruct E as [R D].
    split; [lia|]. specialize (Hs k). destruct (sh k) as [|s|s m|l r rm|]; [| | | |congruence].
    - apply dealt_random in D. destruct D as (po & mo & U & L & _). split; [right; exists (pts_of (d_cm d)); rewrite U at 1; reflexivity|lia].
    - apply dealt_unmasked in D. destruct D as (po & U & L & _). split; [left; exists (pts_of (d_cm d)); rewrite U at 1; reflexivity|lia].
    - apply dealt_masked in D. destruct D as (po & U & L & _). split; [left; exists (pts_of (d_cm d)); rewrite U at 1; reflexivity|lia].
    - apply dealt_times in D. destruct D as (po & mo & U & L & _). split; [right; exists (pts_of (d_cm d)); rewrite U at 1; reflexivity|lia]. }
  split.
  - destruct ds as [|[k d] ds]; [congruence|]. apply (A k d). left. reflexivity.
  - intros [k d] Hin. cbn [snd]. unfold dl_pts. cbn [snd]. apply (A k d). exact Hin.
Qed.

Lemma tr_constant_interp pts t K : length pts <> 0%nat -> tr_commitment t = CInterp K -> unwrap K = CSimple pts \/ unwrap K = CPedersen pts ->
  tr_constant_term t = Ok (nth 0 pts gzero).
Proof.
  intros L E U. unfold tr_constant_term, c_constant_term, c_points. rewrite E. cbn [unwrap].
  destruct U as [-> | ->]; cbn [bind]; (destruct pts; [cbn [length] in L; lia|reflexivity]).
Qed.
Lemma spec_eval_0 po : spec_eval po fzero = nth 0 po fzero.
Proof. rewrite pev_spec. apply pev_0. Qed.

Lemma masked_reshare_ok th ds p po mo mk : keys_ok ds -> ds <> [] ->
  unwrap p = CPedersen (pts_of p) -> commits2 (pts_of p) po mo -> (length po <= length (pts_of p) <= length ds)%nat ->
  dealt_by (fun k => SReshareMasked (spec_eval po (node_x k)) (mk k)) th ds ->
  exists t, new_transcript th ds (TReshareMasked p) = Ok t /\ tr_constant_term t = Ok (mul_by_g (nth 0 po fzero)).
Proof.
  intros K Hne U C [L1 L2] D.
  destruct (dealt_by_lengths _ _ _ D) as [Hth Hl]; [discriminate|exact Hne|].
  destruct (new_transcript_ok th ds (TReshareMasked p) K Hne Hth Hl) as [t E]; [split; [exact U|exact L2]|].
  exists t. split; [exact E|]. apply new_transcript_shape in E; [|assumption|lia|discriminate]. destruct E as (pts & Lp & Et & I).
  rewrite (tr_constant_interp pts t _ ltac:(lia) Et (or_introl eq_refl)). f_equal.
  rewrite (interp_constant ds pts (fun x => mul_by_g (pev po x))); try assumption.
  - rewrite pev_0. reflexivity.
  - exists (map (fun c => smul c genG) po). rewrite map_length. split; [lia|]. intros v. symmetry. apply gev_scal.
  - intros [k d] Hin. destruct (D k d Hin) as (seed & rc & ad & Ed). apply new_dealing_inv in Ed; [|discriminate]. destruct Ed as [_ Ed].
    apply dealt_masked in Ed. destruct Ed as (po' & U' & L' & C' & _ & E0). unfold dl_pts. cbn [snd fst]. rewrite (C' 0%nat), E0.
    rewrite node_x_eq, pev_spec. reflexivity.
Qed.
Lemma unmasked_reshare_ok th ds p po : keys_ok ds -> ds <> [] ->
  unwrap p = CSimple (pts_of p) -> pts_of p <> [] -> commits (pts_of p) po -> (length (pts_of p) <= length ds)%nat ->
  dealt_by (fun k => SReshareUnmasked (spec_eval po (node_x k))) th ds ->
  exists t, new_transcript th ds (TReshareUnmasked p) = Ok t /\ tr_constant_term t = Ok (mul_by_g (nth 0 po fzero)).
Proof.
  intros K Hne U Np C L2 D.
  destruct (dealt_by_lengths _ _ _ D) as [Hth Hl]; [discriminate|exact Hne|].
  destruct (new_transcript_ok th ds (TReshareUnmasked p) K Hne Hth Hl) as [t E].
  { split; [exact U|]. split; [exact Np|]. split; [exact L2|]. intros [k d] Hin.
    destruct (D k d Hin) as (seed & rc & ad & Ed). apply new_dealing_inv in Ed; [|discriminate]. destruct Ed as [_ Ed].
    apply dealt_unmasked in Ed. destruct Ed as (po' & U' & L' & C' & _ & E0). unfold dl_pts. cbn [snd fst]. rewrite (C' 0%nat), E0.
    rewrite gev_spec, (commits_gev _ _ _ C), pev_spec. reflexivity. }
  exists t. split; [exact E|]. apply unmasked_constant in E. destruct E as (P & E1 & E2). rewrite E2.
  apply constant_term_nth in E1. destruct E1 as (_ & _ & <-). rewrite (C 0%nat). reflexivity.
Qed.
Lemma times_ok th ds l r pl pr mr mk : keys_ok ds -> ds <> [] ->
  unwrap l = CSimple (pts_of l) -> unwrap r = CPedersen (pts_of r) -> commits (pts_of l) pl -> commits2 (pts_of r) pr mr ->
  (length pl <= length (pts_of l))%nat -> (length pr <= length (pts_of r))%nat ->
  (length (pts_of l) + length (pts_of r) - 1 <= length ds)%nat ->
  dealt_by (fun k => STimes (spec_eval pl (node_x k)) (spec_eval pr (node_x k)) (mk k)) th ds ->
  exists t M, new_transcript th ds (TTimes l r) = Ok t /\ tr_constant_term t = Ok (pedersen (fmul (nth 0 pl fzero) (nth 0 pr fzero)) M).
Proof.
  intros K Hne U U' C C' Ll Lr L2 D.
  destruct (dealt_by_lengths _ _ _ D) as [Hth Hl]; [discriminate|exact Hne|].
  destruct (new_transcript_ok th ds (TTimes l r) K Hne Hth Hl) as [t E].
  { split; [exact U|]. split; [exact U'|]. lia. }
  pose proof E as E'. apply new_transcript_shape in E'; [|assumption|lia|discriminate]. destruct E' as (pts & Lp & Et & I).
  destruct (interp_constant_product ds pts (fun x => fmul (pev pl x) (pev pr x)) K I) as [M EM].
  - apply (isp_mono (length pl + length pr - 1)); [|apply isp_mul; apply isp_pev; lia].
    destruct (pts_of l), (pts_of r); cbn [length] in *; lia.
  - intros [k d] Hin. destruct (D k d Hin) as (seed & rc & ad & Ed). apply new_dealing_inv in Ed; [|discriminate]. destruct Ed as [_ Ed].
    apply dealt_times in Ed. destruct Ed as (po' & mo' & _ & _ & C2 & _ & _ & E0). unfold dl_pts. cbn [snd fst]. exists (nth 0 mo' fzero).
    rewrite (C2 0%nat), E0, node_x_eq, !pev_spec. reflexivity.
  - exists t, M. split; [exact E|]. rewrite (tr_constant_interp pts t _ ltac:(lia) Et (or_intror eq_refl)), EM, !pev_0. reflexivity.
Qed.
End Honest.
