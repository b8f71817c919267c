(** What CorruptDealing computes and what it does to the dealing it is given. *)
From Coq Require Import ZArith Lia Bool String List.
From Verif Require Import Base BaseFacts Zmod Fields ModelScalar ModelXmd ModelRo ModelPoly ModelGroup ModelCommit ModelZk ModelMega
  ModelDealing ModelComplaint ModelKey ModelSign ModelProtocol ModelHeap ModelHeapSign ModelHeapDeal ProofPoly ProofHeap ProofHeapSign
  ProofHeapZk ProofHeapMega ProofHeapDeal.
Import ListNotations.
Open Scope Z_scope.

Section HeapCorrupt.
Context {X : Oracles} {GO : Grp}.

Lemma hmap_clone_new : forall l vs h, svals h l vs -> refines [] h h (hmap s_clone l) (newss h) (Ok vs).
Proof.
  induction l as [|p l IH]; intros vs h S; inversion S as [|x v y vs' Gp S']; subst; simpl.
  - apply ref_ret; [apply ext_refl|]. split; [constructor|split; constructor].
  - eapply ref_step; [apply s_clone_ok; exact Gp|apply ext_refl|wr|]. intros h1 c E1 F1 [G1 L1]. lens.
    eapply ref_step; [apply IH; eapply svals_ext; [exact E1|exact S']|exact F1|wr|]. intros h2 cs E2 F2 N2. lens.
    apply ref_ret; [exact F2|]. eapply newss_cons; [|exact L1| | |exact N2]; [gt|assumption|assumption].
Qed.
Lemma svals_update h h' f : forall cs vs k c w, svals h cs vs -> NoDup cs -> nth_error cs k = Some c -> nth_error vs k = Some w ->
  ext_but [c] h h' -> get h' c = Some (VS (f w)) -> svals h' cs (update_nth k f vs).
Proof.
  induction cs as [|p cs IH]; intros vs k c w S N C W Ex Gc; inversion S as [|x v y vs' Gp S']; subst; destruct k; simpl in *; try discriminate.
  - injection C as ->. injection W as ->. inversion N; subst. constructor; [exact Gc|]. eapply svals_but; [exact Ex| |exact S'].
    intros q [<-|[]]. assumption.
  - inversion N; subst. constructor; [|eapply IH; eauto]. apply (but_get [c] h); auto. intros [->|[]]. apply nth_error_In in C. auto.
Qed.
Lemma h_add_all_ok r rv : forall ts h cts vs, NoDup cts -> svals h cts vs -> get h r = Some (VS rv) -> ~ In r cts ->
  refines cts h h (h_add_all ts cts r) (fun h' _ vs' => svals h' cts vs') (update_all ts (fun c => fadd c rv) vs).
Proof.
  induction ts as [|t ts IH]; intros h cts vs N S Gr Nr; cbn [h_add_all update_all]; [now apply ref_ret; [apply ext_refl|]|].
  unfold hindex, index. destruct (t <? 0); [split; [apply ext_refl|exact I]|].
  eapply hnth_bind; [exact S|apply ext_refl|]. intros c w Ec Ew Gc. cbv beta in Gc. assert (Ic := nth_error_In _ _ Ec).
  eapply ref_step; [eapply s_add_ok; [exact Gc|exact Gc|exact Gr]|apply ext_refl|intros q [<-|[]]; now left|]. intros h1 q E1 F1 [-> G1].
  eapply ref_from; [apply IH|exact F1|auto].
  - exact N.
  - eapply (svals_update h h1 (fun x => fadd x rv)); eauto.
  - apply (but_get [c] h); auto. intros [->|[]]. auto.
  - exact Nr.
Qed.
Lemma pairs_split h : forall ct cv, Forall2 (pair_val h) ct cv <-> svals h (map fst ct) (map fst cv) /\ svals h (map snd ct) (map snd cv).
Proof.
  induction ct as [|c ct IH]; intros [|v cv]; split; simpl.
  - intros _. split; constructor.
  - intros _. constructor.
  - intros F. inversion F.
  - intros [F _]. inversion F.
  - intros F. inversion F.
  - intros [F _]. inversion F.
  - intros F. inversion F as [|x y l l' [A B] F']; subst. apply IH in F' as [F1 F2]. split; constructor; auto.
  - intros [F1 F2]. inversion F1; inversion F2; subst. constructor; [now split|]. now apply IH.
Qed.
Lemma update_fst rv : forall cv k, map fst (update_nth k (fun c : Fq * Fq => (fadd (fst c) rv, snd c)) cv) = update_nth k (fun x => fadd x rv) (map fst cv).
Proof. induction cv as [|c cv IH]; intros [|k]; simpl; congruence. Qed.
Lemma update_snd rv : forall cv k, map snd (update_nth k (fun c : Fq * Fq => (fadd (fst c) rv, snd c)) cv) = map snd cv.
Proof. induction cv as [|c cv IH]; intros [|k]; simpl; congruence. Qed.
Lemma h_add_all_pair r rv (ct : list (ptr * ptr)) : NoDup (map fst ct) -> (forall p, In p (map fst ct) -> ~ In p (map snd ct)) ->
  forall ts h cv, Forall2 (pair_val h) ct cv -> get h r = Some (VS rv) -> ~ In r (map fst ct) ->
  refines (map fst ct) h h (h_add_all ts (map fst ct) r) (fun h' _ cv' => Forall2 (pair_val h') ct cv')
    (update_all ts (fun c => (fadd (fst c) rv, snd c)) cv).
Proof.
  intros N D. induction ts as [|t ts IH]; intros h cv S Gr Nr; cbn [h_add_all update_all]; [now apply ref_ret; [apply ext_refl|]|].
  destruct (proj1 (pairs_split h ct cv) S) as [S1 S2].
  unfold hindex, index. destruct (t <? 0); [split; [apply ext_refl|exact I]|].
  assert (SF : Forall2 (fun p v => get h p = Some (VS (fst v))) (map fst ct) cv).
  { clear - S. induction S as [|a b la lb [A _] F IH]; simpl; constructor; auto. }
  eapply hnth_bind; [exact SF|apply ext_refl|]. intros c w Ec Ew Gc. cbv beta in Gc. assert (Ic := nth_error_In _ _ Ec).
  eapply ref_step; [eapply s_add_ok; [exact Gc|exact Gc|exact Gr]|apply ext_refl|intros q [<-|[]]; now left|]. intros h1 q E1 F1 [-> G1].
  eapply ref_from; [apply IH|exact F1|auto].
  - apply pairs_split. rewrite update_fst, update_snd. split.
    + eapply (svals_update h h1 (fun x => fadd x rv)); [exact S1|exact N|exact Ec|exact (map_nth_error fst _ _ Ew)|exact E1|exact G1].
    + eapply svals_but; [exact E1| |exact S2]. intros q [<-|[]]. now apply D.
  - apply (but_get [c] h); auto. intros [->|[]]. auto.
  - exact Nr.
Qed.

(** ** The dealing *)
Lemma h_prod_clone_ok h pf v : prv h pf v -> refines [] h h (h_prod_clone pf) prv (Ok v).
Proof. intros D. apply ref_ret; [apply ext_refl|]. destruct pf. exact D. Qed.
Lemma h_zk_clone_ok h p v : zv h p v -> refines [] h h (h_zk_clone p) zv (Ok v).
Proof.
  destruct p, v; simpl; try contradiction; intros D.
  - now apply ref_ret; [apply ext_refl|].
  - eapply ref_step; [apply h_eqo_clone_ok; exact D|apply ext_refl|wr|]. intros h1 a E1 _ A. now apply ref_ret.
  - eapply ref_step; [apply h_prod_clone_ok; exact D|apply ext_refl|wr|]. intros h1 a E1 _ A. now apply ref_ret.
Qed.
(** the scalar cells of a dealing's proofs *)
Definition zk_scalars (p : hzkproof) : list ptr :=
  match p with
  | HPNone => []
  | HPMasked p => [heo_challenge p; heo_response p]
  | HPProduct p => [hpr_challenge p; hpr_response1 p; hpr_response2 p]
  end.
Definition dlog_scalars (p : hdlog) : list ptr := [hdl_challenge p; hdl_response p].
(** no scalar cell of the dealing that CorruptDealing writes is used twice *)
Definition unshared (d : hdealing) : Prop :=
  match hd_ct d with
  | HMPair _ _ pf ct => NoDup (map fst ct) /\ forall p, In p (map fst ct) -> ~ In p (map snd ct ++ dlog_scalars pf ++ zk_scalars (hd_proof d))
  | _ => True
  end.
Definition first_cells (d : hdealing) : list ptr := match hd_ct d with HMPair _ _ _ ct => map fst ct | _ => [] end.

Lemma zv_but ws h h' p v : ext_but ws h h' -> (forall q, In q ws -> ~ In q (zk_scalars p)) -> zv h p v -> zv h' p v.
Proof.
  intros E N. destruct p, v; simpl in *; auto.
  - intros [A B]. split; (apply (but_get ws h); [exact E| |assumption]); intros I; apply (N _ I); simpl; auto.
  - intros (A & B & C). split; [|split]; (apply (but_get ws h); [exact E| |assumption]); intros I; apply (N _ I); simpl; auto.
Qed.
Lemma dlv_but ws h h' p v : ext_but ws h h' -> (forall q, In q ws -> ~ In q (dlog_scalars p)) -> dlv h p v -> dlv h' p v.
Proof. intros E N [A B]. split; (apply (but_get ws h); [exact E| |assumption]); intros I; apply (N _ I); simpl; auto. Qed.
Lemma point_but ws h h' p v vs : ext_but ws h h' -> svals h ws vs -> get h p = Some (VP v) -> get h' p = Some (VP v).
Proof.
  intros E S Gp. apply (but_get ws h); auto. intros I. clear - S Gp I. induction S; destruct I; subst; auto. congruence.
Qed.
Lemma points_but ws h h' ps pv vs : ext_but ws h h' -> svals h ws vs -> pvals h ps pv -> pvals h' ps pv.
Proof. intros E S P. induction P; constructor; auto. eapply point_but; eauto. Qed.
Lemma cval_but ws h h' vs : ext_but ws h h' -> svals h ws vs -> forall c v, cval h c v -> cval h' c v.
Proof. intros E S. induction c; destruct v; simpl; auto; eapply points_but; eauto. Qed.

Lemma curve_flat v : c_curve v = Ok tt -> match unwrap v with CSimple _ | CPedersen _ => True | _ => False end.
Proof. unfold c_curve, c_points. destruct (unwrap v); simpl; try discriminate; auto. Qed.
(** CorruptDealing returns the corrupted dealing; the given one holds the same corrupted ciphertext afterwards
    if it is a pair. *)
Lemma h_corrupt_dealing_ok h d ts seed v : dv h d v -> unwrap (d_cm v) = d_cm v -> unshared d ->
  refines (first_cells d) h h (h_corrupt_dealing d ts seed)
    (fun h' a b => dv h' a b /\ match hd_ct d with HMPair _ _ _ _ => dv h' d b | _ => True end) (corrupt_dealing v ts seed).
Proof.
  intros (Dc & Dm & Dp) U N. unfold h_corrupt_dealing, corrupt_dealing. cbv zeta.
  eapply ref_bind0 with (R1 := fun h' _ _ => h' = h /\ c_curve (d_cm v) = Ok tt); [|apply ext_refl|].
  { destruct (hc_curve_ok h _ _ Dm) as [Ec Rc]. split; [exact Ec|].
    destruct (snd (hc_curve (hd_cm d) h)), (c_curve (d_cm v)) as [[]| | |]; simpl in *; try contradiction; auto. destruct Rc as [Rc _]. auto. }
  intros h' u u' _ _ [-> Cu]. apply curve_flat in Cu. nl. nr. rename Cu into Fl.
  unfold first_cells, unshared in *.
  destruct (hd_ct d) as [e pp pf ct|e pp pf ct|] eqn:Ect, (d_ct v) as [ev pv pfv cv|ev pv pfv cv|] eqn:Ecv; simpl in Dc; try contradiction.
  - destruct Dc as (A1 & A2 & A3 & A4). lens. apply ref_assoc'.
    eapply ref_step; [apply hmap_clone_new; eapply svals_ext; [exact F|exact A4]|base|wr|]. intros h1 cts E1 F1 (S1 & L1 & N1). lens.
    apply ref_assoc'.
    eapply ref_bind; [apply (h_add_all_ok p v0); [exact N1|exact S1|gt|]|base| |].
    + intros Ip. rewrite Forall_forall in L1. specialize (L1 _ Ip). lia.
    + intros q Iq. right. rewrite Forall_forall in L1. specialize (L1 _ Iq). lia.
    + intros h2 w ctv2 E2 F2 S2. lens.
      apply ref_assoc'. nx p_clone_ok. apply ref_assoc'. nx p_clone_ok.
      match goal with |- refines _ _ ?x _ _ _ => rename x into hx end. assert (Fx : ext h hx) by assumption.
      assert (Sx : svals hx cts ctv2) by (eapply svals_ext; [|exact S2]; eapply ext_trans; eassumption).
      change (hbind (hret (HMSingle a0 a1 pf cts)) ?k) with (k (HMSingle a0 a1 pf cts)). cbv beta.
      eapply ref_step; [apply h_zk_clone_ok; eapply zv_ext; [exact Fx|exact Dp]|base|wr|]. intros h5 z E5 F5 Z5. lens.
      eapply ref_step; [apply hc_clone_ok; [eapply cval_ext; [exact F5|exact Dm]|exact Fl]|base|wr|]. intros h6 c E6 F6 C6. lens.
      apply ref_ret; [exact F6|]. split; [|exact I]. split; [|split]; cbn [hd_ct hd_cm hd_proof d_ct d_cm d_proof ctv].
      * split; [gt|]. split; [gt|]. split; [eapply dlv_ext; [exact F6|exact A3]|]. eapply svals_ext; [|exact Sx]. eapply ext_trans; eassumption.
      * rewrite <- U. exact C6.
      * eapply zv_ext; [exact E6|exact Z5].
  - destruct Dc as (A1 & A2 & A3 & A4). destruct N as [N1 N2]. destruct (proj1 (pairs_split h ct cv) A4) as [S1 _].
    assert (L1 : forall q, In q (map fst ct) -> (q < List.length h)%nat).
    { intros q I. apply svals_lt in S1. rewrite Forall_forall in S1. now apply S1. }
    assert (N3 : forall q, In q (map fst ct) -> ~ In q (map snd ct)) by (intros q I I'; apply (N2 q I), in_app_iff; auto).
    assert (N4 : forall q, In q (map fst ct) -> ~ In q (dlog_scalars pf)) by (intros q I I'; apply (N2 q I); rewrite !in_app_iff; auto).
    assert (N5 : forall q, In q (map fst ct) -> ~ In q (zk_scalars (hd_proof d))) by (intros q I I'; apply (N2 q I); rewrite !in_app_iff; auto).
    lens. apply ref_assoc'.
    eapply ref_bind; [apply (h_add_all_pair p v0); [exact N1|exact N3|eapply pairs_ext; [exact E|exact A4]|gt|]|base|auto|].
    { intros Ip. specialize (L1 _ Ip). lia. }
    intros h2 w ctv2 E2 F2 S2. lens.
    assert (B1 := point_but _ _ _ _ _ _ F2 S1 A1). assert (B2 := point_but _ _ _ _ _ _ F2 S1 A2).
    assert (B3 := dlv_but _ _ _ _ _ F2 N4 A3). assert (B4 := zv_but _ _ _ _ _ F2 N5 Dp). assert (B5 := cval_but _ _ _ _ F2 S1 _ _ Dm). lens.
    apply ref_assoc'. eapply ref_step; [apply p_clone_ok; exact B1|base|wr|]. intros h3 e3 E3 F3 [G3 L3]. lens.
    apply ref_assoc'. eapply ref_step; [apply p_clone_ok; gt|base|wr|]. intros h4 p4 E4 F4 [G4 L4]. lens.
    assert (X4 : ext h2 h4) by (eapply ext_trans; eassumption).
    change (hbind (hret (HMPair e3 p4 pf ct)) ?k) with (k (HMPair e3 p4 pf ct)). cbv beta.
    eapply ref_step; [apply h_zk_clone_ok; eapply zv_ext; [exact X4|exact B4]|base|wr|]. intros h5 z E5 F5 Z5. lens.
    assert (X5 : ext h2 h5) by (eapply ext_trans; eassumption).
    eapply ref_step; [apply hc_clone_ok; [eapply cval_ext; [exact X5|exact B5]|exact Fl]|base|wr|]. intros h6 c E6 F6 C6. lens.
    assert (X6 : ext_but [] h2 h6) by (eapply ext_trans; eassumption).
    apply ref_ret; [exact F6|]. split; (split; [|split]); rewrite ?Ect; cbn [hd_ct hd_cm hd_proof d_ct d_cm d_proof ctv].
    + split; [gt|]. split; [gt|]. split; [eapply dlv_ext; [exact X6|exact B3]|]. eapply pairs_ext; [exact X6|exact S2].
    + rewrite <- U. exact C6.
    + eapply zv_ext; [exact E6|exact Z5].
    + split; [now apply (ext_get h2)|]. split; [now apply (ext_get h2)|]. split; [eapply dlv_ext; [exact X6|exact B3]|]. eapply pairs_ext; [exact X6|exact S2].
    + eapply cval_ext; [exact X6|exact B5].
    + eapply zv_ext; [exact X6|exact B4].
  - change (hbind (hret HMNil) ?k) with (k HMNil). cbv beta.
    eapply ref_step; [apply h_zk_clone_ok; eapply zv_ext; [exact E|exact Dp]|base|wr|]. intros h5 z E5 F5 Z5. lens.
    eapply ref_step; [apply hc_clone_ok; [eapply cval_ext; [exact F5|exact Dm]|exact Fl]|base|wr|]. intros h6 c E6 F6 C6. lens.
    apply ref_ret; [exact F6|]. split; [|exact I]. split; [exact I|]. split; cbn [hd_cm hd_proof d_cm d_proof].
    + rewrite <- U. exact C6.
    + eapply zv_ext; [exact E6|exact Z5].
Qed.
End HeapCorrupt.
