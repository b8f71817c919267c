(** The memory-level encryption and decryption of ModelHeapDeal compute the functions on values. *)
From Coq Require Import ZArith Lia Bool String List.
From Verif Require Import Base BaseFacts Zmod Fields ModelScalar ModelXmd ModelRo ModelPoly ModelGroup ModelCommit ModelZk ModelMega
  ModelDealing ModelComplaint ModelKey ModelSign ModelHeap ModelHeapSign ModelHeapDeal ProofPoly ProofHeap ProofHeapSign ProofHeapZk.
Import ListNotations.
Open Scope Z_scope.

Section HeapMega.
Context {X : Oracles} {GO : Grp}.

(** ** Lists *)
Lemma f2_combine {A B C D} (P : A -> B -> Prop) (Q : C -> D -> Prop) la lb : Forall2 P la lb -> forall lc ld, Forall2 Q lc ld ->
  Forall2 (fun x y => P (fst x) (fst y) /\ Q (snd x) (snd y)) (combine la lc) (combine lb ld).
Proof. induction 1; intros lc ld F; simpl; [constructor|]. inversion F; subst; constructor; simpl; auto. Qed.
Lemma f2_refl {A} (l : list A) : Forall2 eq l l.
Proof. induction l; constructor; auto. Qed.
Lemma f2_nth {A B} (P : A -> B -> Prop) la lb : Forall2 P la lb -> forall i,
  (exists a b, nth_error la i = Some a /\ nth_error lb i = Some b /\ P a b) \/ (nth_error la i = None /\ nth_error lb i = None).
Proof. induction 1 as [|a b la lb Pab F IH]; intros [|i]; simpl; eauto 6. Qed.
Lemma f2_length {A B} (P : A -> B -> Prop) la lb : Forall2 P la lb -> List.length la = List.length lb.
Proof. induction 1; simpl; auto. Qed.
Lemma hnth_bind {A B A' B'} (P : A -> B -> Prop) ws h0 h la lb i (k : A -> M A') (f : B -> res B') R : Forall2 P la lb -> ext_but ws h0 h ->
  (forall a b, nth_error la i = Some a -> nth_error lb i = Some b -> P a b -> refines ws h0 h (k a) R (f b)) ->
  refines ws h0 h (hbind (hnth la i) k) R (bind (nth_or_panic lb i) f).
Proof.
  intros F E K. unfold refines, hbind, hnth, hlift, nth_or_panic.
  destruct (f2_nth P la lb F i) as [(a & b & Ea & Eb & Pab)|[Ea Eb]]; rewrite Ea, Eb; [|split; [exact E|exact I]]. now apply (K a b).
Qed.
Lemma hindex_bind {A B A' B'} (P : A -> B -> Prop) ws h0 h la lb i (k : A -> M A') (f : B -> res B') R : Forall2 P la lb -> ext_but ws h0 h ->
  (forall a b, P a b -> refines ws h0 h (k a) R (f b)) ->
  refines ws h0 h (hbind (hindex la i) k) R (bind (index lb i) f).
Proof.
  intros F E K. unfold hindex, index. destruct (i <? 0); [split; [exact E|exact I]|]. eapply hnth_bind; eauto.
Qed.
Lemma nodup_nth01 (l : list ptr) a b : NoDup l -> nth_error l 0 = Some a -> nth_error l 1 = Some b -> a <> b.
Proof.
  destruct l as [|x [|y l]]; simpl; try discriminate. intros N A B. injection A as <-. injection B as <-.
  inversion N; subst. simpl in *. intuition.
Qed.
Lemma nth_ge n (l : list ptr) i a : Forall (fun p => (n <= p)%nat) l -> nth_error l i = Some a -> (n <= a)%nat.
Proof. intros F E. rewrite Forall_forall in F. apply F. eapply nth_error_In; eauto. Qed.

(** ** Hashing and the proof of possession *)
Lemma hmap_s_new_ok h l : refines [] h h (hmap s_new l) (newss h) (Ok l).
Proof.
  replace (Ok l) with (mapM (fun v : Fq => Ok v) l).
  - apply hmap_ok. intros. apply s_new_ok.
  - induction l as [|a l IH]; simpl; [reflexivity|]. now rewrite IH.
Qed.
Lemma h_mega_hash_ok h t dealer rc ad pk eph ss pkv ev sv :
  get h pk = Some (VP pkv) -> get h eph = Some (VP ev) -> get h ss = Some (VP sv) ->
  refines [] h h (h_mega_hash t dealer rc ad pk eph ss) (newss h) (mega_hash t dealer rc ad pkv ev sv).
Proof. intros. unfold h_mega_hash. do 3 nxl load_p_run. apply ref_lift_last; [base|]. intros l _. apply hmap_s_new_ok. Qed.
Lemma h_pop_base_ok h t ad dealer eph ev : get h eph = Some (VP ev) ->
  refines [] h h (h_pop_base t ad dealer eph) (newp h) (pop_base t ad dealer ev).
Proof. intros. unfold h_pop_base. nxl load_p_run. apply ref_lift_last; [base|]. intros l _. apply p_new_ok. Qed.
Lemma h_verify_pop_ok h t ad dealer eph pop pf ev pv v : get h eph = Some (VP ev) -> get h pop = Some (VP pv) -> dlv h pf v ->
  refines [] h h (h_verify_pop t ad dealer eph pop pf) (fun _ _ _ => True) (verify_pop t ad dealer ev pv v).
Proof.
  intros G1 G2 D. unfold h_verify_pop, verify_pop. lens. nb h_pop_base_ok. nx p_new_ok.
  eapply ref_last0; [eapply h_dlog_verify_ok; [gt|gt|gt|gt|eapply dlv_ext; [|exact D]; eassumption]|assumption|auto].
Qed.
Definition epv (h : heap) (e : heph) (v : Fq * G * G * dlog_proof) : Prop :=
  let '(beta, vv, pop, pf) := v in
  get h (he_beta e) = Some (VS beta) /\ get h (he_v e) = Some (VP vv) /\ get h (he_pop e) = Some (VP pop) /\ dlv h (he_proof e) pf.
Lemma h_eph_and_pop_ok h t seed ad dealer : refines [] h h (h_eph_and_pop t seed ad dealer) epv (eph_and_pop t seed ad dealer).
Proof.
  unfold h_eph_and_pop, eph_and_pop. cbv zeta. nl. nl. nx s_new_ok. nx p_mul_by_g_ok. nb h_pop_base_ok. nx p_clone_mul_ok. nl.
  nx p_new_ok. nb h_dlog_create_ok. apply ref_ret; [assumption|]. unfold epv. cbn [he_beta he_v he_pop he_proof].
  split; [gt|]. split; [gt|]. split; [gt|]. assumption.
Qed.

(** ** Ciphertexts *)
Definition ctv (h : heap) (c : hciphertext) (v : ciphertext) : Prop :=
  match c, v with
  | HMSingle e p pf ct, MSingle ev pv pfv cv => get h e = Some (VP ev) /\ get h p = Some (VP pv) /\ dlv h pf pfv /\ svals h ct cv
  | HMPair e p pf ct, MPair ev pv pfv cv => get h e = Some (VP ev) /\ get h p = Some (VP pv) /\ dlv h pf pfv /\ Forall2 (pair_val h) ct cv
  | HMNil, MNil => True
  | _, _ => False
  end.
Lemma pair_val_ext h h' s v : ext h h' -> pair_val h s v -> pair_val h' s v.
Proof. intros E [A B]. split; eauto using (ext_get h). Qed.
Lemma pairs_ext h h' s v : ext h h' -> Forall2 (pair_val h) s v -> Forall2 (pair_val h') s v.
Proof. intros E. apply f2_mono. intros a b. now apply pair_val_ext. Qed.
Lemma ctv_ext h h' c v : ext h h' -> ctv h c v -> ctv h' c v.
Proof.
  intros E. destruct c, v; simpl; auto; intros (A & B & C & D);
    (split; [now apply (ext_get h)|]; split; [now apply (ext_get h)|]; split; [now apply (dlv_ext h)|]).
  - now apply (svals_ext h).
  - now apply (pairs_ext h).
Qed.
Lemma check_plaintexts_eq {A B A' B'} (P : A -> A' -> Prop) (Q : B -> B' -> Prop) pl plv rc rcv : Forall2 P pl plv -> Forall2 Q rc rcv ->
  check_plaintexts pl rc = check_plaintexts plv rcv.
Proof.
  intros F1 F2. unfold check_plaintexts. rewrite (f2_length _ _ _ F1), (f2_length _ _ _ F2). inversion F1; reflexivity.
Qed.
Lemma h_encrypt_single_ok h seed pl rc dealer ad plv rcv : svals h pl plv -> pvals h rc rcv ->
  refines [] h h (h_encrypt_single seed pl rc dealer ad) ctv (encrypt_single seed plv rcv dealer ad).
Proof.
  intros Sp Pr. unfold h_encrypt_single, encrypt_single. rewrite (check_plaintexts_eq _ _ _ _ _ _ Sp Pr). nl.
  nb h_eph_and_pop_ok. destruct b as [[[beta vv] pop] pf]. destruct R as (Gb & Gv & Gp & Gf).
  eapply ref_bind0; [|base|].
  - apply hmapr with (Q := fun hh x y => fst x = fst y /\ get hh (fst (snd x)) = Some (VP (fst (snd y))) /\ get hh (snd (snd x)) = Some (VS (snd (snd y))))
      (R := fun hh p v => get hh p = Some (VS v)).
    + intros k k' x y Ek (A & B & C). repeat split; auto; now apply (ext_get k).
    + intros k k' x y Ek. now apply ext_get.
    + rewrite (f2_length _ _ _ Pr). eapply f2_mono; [|apply f2_combine; [apply f2_refl|apply f2_combine; [exact (pvals_ext _ _ _ _ E Pr)|exact (svals_ext _ _ _ _ E Sp)]]].
      intros x y (A & B & C). auto.
    + intros k [i [pk pt]] [i' [pkv ptv]] Ek (A & B & C). cbn [fst snd] in *. subst i'.
      pose proof (ext_get _ _ _ _ Ek Gb) as Kb. pose proof (ext_get _ _ _ _ Ek Gv) as Kv. lens.
      nx p_clone_mul_ok. nb h_mega_hash_ok. destruct R as (Sh & Fh & Nh).
      eapply hnth_bind; [exact Sh|base|]. intros x y I0 _ Gx. pose proof (nth_ge _ _ _ _ Fh I0). cbv beta in Gx. lens.
      eapply ref_last; [eapply s_add_ok; gt|eassumption|wr|]. intros h' p w E' [-> G']. exact G'.
  - intros h2 cts ctsv E2 F2 Sc. apply ref_ret; [exact F2|]. cbn [ctv].
    split; [gt|]. split; [gt|]. split; [now apply (dlv_ext _ _ _ _ E2)|exact Sc].
Qed.
Lemma h_encrypt_pair_ok h seed pl rc dealer ad plv rcv : Forall2 (pair_val h) pl plv -> pvals h rc rcv ->
  refines [] h h (h_encrypt_pair seed pl rc dealer ad) ctv (encrypt_pair seed plv rcv dealer ad).
Proof.
  intros Sp Pr. unfold h_encrypt_pair, encrypt_pair. rewrite (check_plaintexts_eq _ _ _ _ _ _ Sp Pr). nl.
  nb h_eph_and_pop_ok. destruct b as [[[beta vv] pop] pf]. destruct R as (Gb & Gv & Gp & Gf).
  eapply ref_bind0; [|base|].
  - apply hmapr with (Q := fun hh x y => fst x = fst y /\ get hh (fst (snd x)) = Some (VP (fst (snd y))) /\ pair_val hh (snd (snd x)) (snd (snd y)))
      (R := pair_val).
    + intros k k' x y Ek (A & B & C). split; [exact A|]. split; [now apply (ext_get k)|now apply (pair_val_ext k)].
    + intros k k' x y Ek. now apply pair_val_ext.
    + rewrite (f2_length _ _ _ Pr). eapply f2_mono; [|apply f2_combine; [apply f2_refl|apply f2_combine; [exact (pvals_ext _ _ _ _ E Pr)|exact (pairs_ext _ _ _ _ E Sp)]]].
      intros x y (A & B & C). auto.
    + intros k [i [pk [p0 p1]]] [i' [pkv [v0 v1]]] Ek (A & B & C). cbn [fst snd] in *. subst i'. destruct C as [C0 C1]. cbn [fst snd] in *.
      pose proof (ext_get _ _ _ _ Ek Gb) as Kb. pose proof (ext_get _ _ _ _ Ek Gv) as Kv. lens.
      nx p_clone_mul_ok. nb h_mega_hash_ok. destruct R as (Sh & Fh & Nh).
      eapply hnth_bind; [exact Sh|base|]. intros x y I0 _ Gx. pose proof (nth_ge _ _ _ _ Fh I0). cbv beta in Gx.
      eapply hnth_bind; [exact Sh|base|]. intros x1 y1 I1 _ Gx1. pose proof (nth_ge _ _ _ _ Fh I1). cbv beta in Gx1.
      pose proof (nodup_nth01 _ _ _ Nh I0 I1). lens.
      nx s_add_ok. nx s_add_ok. apply ref_ret; [assumption|]. split; cbn [fst snd]; gt.
  - intros h2 cts ctsv E2 F2 Sc. apply ref_ret; [exact F2|]. cbn [ctv].
    split; [gt|]. split; [gt|]. split; [now apply (dlv_ext _ _ _ _ E2)|exact Sc].
Qed.
Lemma hmapp_clone_ok h l vs : pvals h l vs -> refines [] h h (hmap p_clone l) pvals (Ok vs).
Proof.
  intros P. replace (Ok vs) with (mapM (fun v : G => Ok v) vs).
  - apply hmapr with (Q := fun hh p v => get hh p = Some (VP v)); auto.
    + intros k k' x y Ek. now apply ext_get.
    + intros k k' x y Ek. now apply ext_get.
    + intros k x y Ek Gx. eapply ref_last0; [eapply p_clone_ok; exact Gx|apply ext_refl|]. intros h' a b E' [A _]. exact A.
  - clear. induction vs as [|a l IH]; simpl; [reflexivity|]. now rewrite IH.
Qed.
Lemma hmaps_clone_ok h l vs : svals h l vs -> refines [] h h (hmap s_clone l) svals (Ok vs).
Proof.
  intros P. replace (Ok vs) with (mapM (fun v : Fq => Ok v) vs).
  - apply hmapr with (Q := fun hh p v => get hh p = Some (VS v)); auto.
    + intros k k' x y Ek. now apply ext_get.
    + intros k k' x y Ek. now apply ext_get.
    + intros k x y Ek Gx. eapply ref_last0; [eapply s_clone_ok; exact Gx|apply ext_refl|]. intros h' a b E' [A _]. exact A.
  - clear. induction vs as [|a l IH]; simpl; [reflexivity|]. now rewrite IH.
Qed.
Lemma h_single_clone_ok h eph pop pf ct ev pv v cv : ctv h (HMSingle eph pop pf ct) (MSingle ev pv v cv) ->
  refines [] h h (h_single_clone eph pop pf ct) ctv (Ok (MSingle ev pv v cv)).
Proof.
  intros (A & B & C & D). unfold h_single_clone. lens.
  eapply ref_step; [apply hmaps_clone_ok; exact D|base|wr|]. intros h1 l E1 F1 Sl. lens. nx p_clone_ok. nx p_clone_ok.
  match goal with |- refines _ _ ?x _ _ _ => rename x into hx end. assert (Fx : ext h hx) by assumption.
  eapply ref_step; [apply h_dlog_clone_ok; eapply dlv_ext; [exact Fx|exact C]|base|wr|]. intros h4 pf4 E4 F4 D4.
  apply ref_ret; [assumption|]. cbn [ctv]. split; [gt|]. split; [gt|]. split; [exact D4|].
  eapply svals_ext; [|exact Sl]. repeat (eapply ext_trans; [eassumption|]); eapply ext_refl.
Qed.
Lemma hm_recipients_ok h c v : ctv h c v -> refines [] h h (hm_recipients c) (fun h' a b => h' = h /\ a = b) (m_recipients v).
Proof.
  destruct c, v; simpl; try contradiction; intros D; try (destruct D as (_ & _ & _ & D); rewrite (f2_length _ _ _ D)).
  - apply ref_ret; [apply ext_refl|auto].
  - apply ref_ret; [apply ext_refl|auto].
  - apply ref_panic, ext_refl.
Qed.
Lemma hm_eph_ok h c v : ctv h c v -> refines [] h h (hm_eph c) (fun h' a b => h' = h /\ get h a = Some (VP b)) (m_eph v).
Proof.
  destruct c, v; simpl; try contradiction; intros D.
  - apply ref_ret; [apply ext_refl|intuition].
  - apply ref_ret; [apply ext_refl|intuition].
  - apply ref_panic, ext_refl.
Qed.
Lemma hm_verify_pop_ok h c v ad dealer : ctv h c v -> refines [] h h (hm_verify_pop c ad dealer) (fun _ _ _ => True) (m_verify_pop v ad dealer).
Proof.
  destruct c, v; simpl; try contradiction; intros D.
  - destruct D as (A & B & C & D). now apply h_verify_pop_ok.
  - destruct D as (A & B & C & D). now apply h_verify_pop_ok.
  - apply ref_panic, ext_refl.
Qed.
Lemma hm_check_validity_ok h c v n ad dealer : ctv h c v ->
  refines [] h h (hm_check_validity c n ad dealer) (fun _ _ _ => True) (m_check_validity v n ad dealer).
Proof.
  intros D. unfold hm_check_validity, m_check_validity. eapply ref_bind0; [apply hm_recipients_ok; exact D|base|].
  intros h1 a b _ _ [-> ->]. destruct (negb (b =? n)); [apply ref_err, ext_refl|now apply hm_verify_pop_ok].
Qed.
Lemma hm_verify_is_ok h c v t : ctv h c v -> refines [] h h (hm_verify_is c t) (fun h' _ _ => h' = h) (m_verify_is v t).
Proof.
  assert (K : forall b, refines [] h h (hguard b) (fun h' _ (_ : unit) => h' = h) (guard b)).
  { intros b. unfold hguard, guard. destruct b; [now apply ref_ret; [apply ext_refl|]|apply ref_err, ext_refl]. }
  destruct c, v; simpl; try contradiction; intros D; auto. apply ref_panic, ext_refl.
Qed.
Lemma h_decrypt_single_ss_ok h eph ct ad dealer rc pk ss ev cv pkv sv :
  get h eph = Some (VP ev) -> svals h ct cv -> get h pk = Some (VP pkv) -> get h ss = Some (VP sv) ->
  refines [] h h (h_decrypt_single_ss eph ct ad dealer rc pk ss) (news h) (decrypt_single_ss ev cv ad dealer rc pkv sv).
Proof.
  intros Ge Sc Gp Gs. unfold h_decrypt_single_ss, decrypt_single_ss. rewrite (f2_length _ _ _ Sc).
  destruct (_ <=? rc); [apply ref_err, ext_refl|]. lens. nb h_mega_hash_ok. destruct R as (Sh & Fh & Nh).
  eapply hindex_bind; [exact (svals_ext _ _ _ _ E Sc)|base|]. intros c cvv Gc. cbv beta in Gc. lens. nx s_clone_ok.
  eapply hnth_bind; [exact Sh|base|]. intros x y _ _ Gx. cbv beta in Gx. lens.
  eapply ref_last; [eapply s_sub_ok; gt|eassumption|wr|]. intros h' p w E' [-> G']. split; [exact G'|lia].
Qed.
Lemma h_decrypt_pair_ss_ok h eph ct ad dealer rc pk ss ev cv pkv sv :
  get h eph = Some (VP ev) -> Forall2 (pair_val h) ct cv -> get h pk = Some (VP pkv) -> get h ss = Some (VP sv) ->
  refines [] h h (h_decrypt_pair_ss eph ct ad dealer rc pk ss)
    (fun h' a b => news h h' (fst a) (fst b) /\ news h h' (snd a) (snd b) /\ fst a <> snd a) (decrypt_pair_ss ev cv ad dealer rc pkv sv).
Proof.
  intros Ge Sc Gp Gs. unfold h_decrypt_pair_ss, decrypt_pair_ss. rewrite (f2_length _ _ _ Sc).
  destruct (_ <=? rc); [apply ref_err, ext_refl|]. lens. nb h_mega_hash_ok. destruct R as (Sh & Fh & Nh).
  eapply hindex_bind; [exact (pairs_ext _ _ _ _ E Sc)|base|]. intros [c0 c1] [v0 v1] [Gc0 Gc1]. cbn [fst snd] in *. lens.
  nx s_clone_ok. eapply hnth_bind; [exact Sh|base|]. intros x y _ _ Gx. cbv beta in Gx. lens. nx s_sub_ok. nx s_clone_ok.
  eapply hnth_bind; [exact Sh|base|]. intros x1 y1 _ _ Gx1. cbv beta in Gx1. lens. nx s_sub_ok.
  apply ref_ret; [assumption|]. cbn [fst snd]. split; [split; [gt|lia]|]. split; [split; [gt|lia]|lia].
Qed.
Lemma hm_decrypt_ok h c ad dealer rc sk pk v skv pkv : ctv h c v -> get h sk = Some (VS skv) -> get h pk = Some (VP pkv) ->
  refines [] h h (hm_decrypt c ad dealer rc sk pk) (newo h) (m_decrypt v ad dealer rc skv pkv).
Proof.
  intros D Gs Gp. unfold hm_decrypt, m_decrypt. lens. eapply ref_bind0; [apply hm_verify_pop_ok; exact D|base|].
  intros h1 u1 u2 E1 _ _. lens. apply (ctv_ext _ _ _ _ E1) in D. destruct c, v; simpl in D; try contradiction.
  - destruct D as (A & B & C & D). lens. nx p_clone_mul_ok.
    eapply ref_bind0; [eapply h_decrypt_single_ss_ok; [gt|eapply svals_ext; [|exact D]; eassumption|gt|gt]|base|].
    intros h3 a3 b3 E3 F3 [G3 L3]. apply ref_ret; [assumption|]. split; [exact G3|lens; lia].
  - destruct D as (A & B & C & D). lens. nx p_clone_mul_ok.
    eapply ref_bind0; [eapply h_decrypt_pair_ss_ok; [gt|eapply pairs_ext; [|exact D]; eassumption|gt|gt]|base|].
    intros h3 a3 b3 E3 F3 ([G3 L3] & [G4 L4] & N). apply ref_ret; [assumption|]. split; [split; [exact G3|exact G4]|lens; lia].
  - apply ref_panic. assumption.
Qed.
Lemma hm_decrypt_and_check_ok h c cm ad dealer rc sk pk v cmv skv pkv : ctv h c v -> cval h cm cmv -> get h sk = Some (VS skv) -> get h pk = Some (VP pkv) ->
  refines [] h h (hm_decrypt_and_check c cm ad dealer rc sk pk) (newo h) (m_decrypt_and_check v cmv ad dealer rc skv pkv).
Proof.
  intros D Dc Gs Gp. unfold hm_decrypt_and_check, m_decrypt_and_check. lens. eapply ref_bind0; [eapply hm_decrypt_ok; eassumption|base|].
  intros h1 o ov E1 F1 O. eapply ref_bind0; [eapply hc_check_opening_ok; [eapply cval_ext; [exact E1|exact Dc]|exact (proj1 O)]|base|].
  intros h2 b b' E2 F2 ->. destruct b'; [|now apply ref_err]. apply ref_ret; [exact F2|]. now apply (newo_ext h h1).
Qed.
End HeapMega.
