(** The memory-level dealings, transcripts, openings and complaints of ModelHeapDeal compute the functions on values. *)
From Coq Require Import ZArith Lia Bool String List.
From Verif Require Import Base BaseFacts Zmod Fields ModelScalar ModelXmd ModelRo ModelPoly ModelGroup ModelCommit ModelZk ModelMega
  ModelDealing ModelComplaint ModelKey ModelSign ModelHeap ModelHeapSign ModelHeapDeal ProofPoly ProofHeap ProofHeapSign ProofHeapZk ProofHeapMega.
Import ListNotations.
Open Scope Z_scope.

Section HeapDealing.
Context {X : Oracles} {GO : Grp}.

(** ** Helpers *)
Definition zrel {A B} (P : A -> B -> Prop) (a : Z * A) (b : Z * B) : Prop := fst a = fst b /\ P (snd a) (snd b).
Lemma zrel_fst {A B} (P : A -> B -> Prop) la lb : Forall2 (zrel P) la lb -> map fst la = map fst lb.
Proof. induction 1 as [|a b la lb [E _] F IH]; simpl; congruence. Qed.
Lemma zrel_snd {A B} (P : A -> B -> Prop) la lb : Forall2 (zrel P) la lb -> Forall2 P (map snd la) (map snd lb).
Proof. induction 1 as [|a b la lb [_ E] F IH]; simpl; constructor; auto. Qed.
Lemma zrel_mono {A B} (P Q : A -> B -> Prop) la lb : (forall a b, P a b -> Q a b) -> Forall2 (zrel P) la lb -> Forall2 (zrel Q) la lb.
Proof. intros H. apply f2_mono. intros a b [E Pab]. split; auto. Qed.
Lemma or_panic_ok {A B} ws h0 h (m : M A) (R : heap -> A -> B -> Prop) r : refines ws h0 h m R r -> refines ws h0 h (hor_panic m) R (or_panic r).
Proof. intros [E H]. unfold refines, hor_panic. destruct (m h) as [h' [a| | |]], r; simpl in *; try contradiction; auto. Qed.
Lemma ref_attempt {A B A' B'} ws h0 h (m : M A) (R1 : heap -> A -> B -> Prop) r (k : option A -> M A') (f1 : B -> res B') (f2 : res B') R :
  refines [] h h m R1 r -> ext_but ws h0 h ->
  (forall h' a b, ext_but [] h h' -> ext_but ws h0 h' -> R1 h' a b -> refines ws h0 h' (k (Some a)) R (f1 b)) ->
  (forall h', ext_but [] h h' -> ext_but ws h0 h' -> refines ws h0 h' (k None) R f2) ->
  refines ws h0 h (hbind (hattempt m) k) R (match r with Ok b => f1 b | Err => f2 | Panic => Panic | Diverge => Diverge end).
Proof.
  intros H E0 K1 K2. assert (E1 : ext_but ws h0 (fst (m h))) by (apply (ref_from ws [] h0 h m R1 r H E0); intros ? []).
  destruct H as [E H]. unfold refines, hbind, hattempt. destruct (m h) as [h' [a| | |]], r as [b| | |]; simpl in *; try contradiction.
  - now apply (K1 h' a b).
  - now apply K2.
  - split; [exact E1|exact I].
  - split; [exact E1|exact I].
Qed.
Lemma ref_assoc' {A A' A'' B} ws h0 h (m : M A) (k : A -> M A') (k' : A' -> M A'') R (r : res B) :
  refines ws h0 h (hbind m (fun a => hbind (k a) k')) R r -> refines ws h0 h (hbind (hbind m k) k') R r.
Proof.
  unfold refines. assert (E : hbind (hbind m k) k' h = hbind m (fun a => hbind (k a) k') h).
  { unfold hbind. destruct (m h) as [h' [a| | |]]; reflexivity. }
  now rewrite E.
Qed.
Lemma pvals_but ws h h' ps vs : ext_but ws h h' -> (forall p, In p ws -> ~ In p ps) -> pvals h ps vs -> pvals h' ps vs.
Proof.
  intros E N S. induction S; constructor.
  - apply (but_get ws h); auto. intros I. apply (N _ I). now left.
  - apply IHS. intros p I1 I2. apply (N _ I1). now right.
Qed.
Lemma newc_cval h h' c v : newc h h' c v -> cval h' c v.
Proof. now intros [A _]. Qed.

(** ** Commitments *)
Definition kept {A B} (h : heap) (P : A -> B -> Prop) : heap -> A -> B -> Prop := fun h' a b => h' = h /\ P a b.
Lemma hc_len_ok h c v : cval h c v -> refines [] h h (hc_len c) (kept h eq) (c_len v).
Proof.
  intros C. unfold hc_len, c_len. eapply ref_bind0; [apply hc_points_ok; exact C|apply ext_refl|]. intros h' l vs _ E [-> P].
  apply ref_ret; [exact E|]. split; [reflexivity|]. now rewrite (pvals_length _ _ _ P).
Qed.
Lemma hc_curve_ok h c v : cval h c v -> refines [] h h (hc_curve c) (kept h eq) (c_curve v).
Proof.
  intros C. unfold hc_curve, c_curve. eapply ref_bind0; [apply hc_points_ok; exact C|apply ext_refl|]. intros h' l vs _ E [-> P].
  destruct P; [now apply ref_panic|]. apply ref_ret; [exact E|now split].
Qed.
Lemma guard_kept h b : refines [] h h (hguard b) (kept h eq) (guard b).
Proof. unfold hguard, guard. destruct b; [apply ref_ret; [apply ext_refl|now split]|apply ref_err, ext_refl]. Qed.
Lemma hc_verify_is_ok h c v ty : cval h c v -> refines [] h h (hc_verify_is c ty) (kept h eq) (c_verify_is v ty).
Proof.
  intros C. unfold hc_verify_is, c_verify_is. eapply ref_bind0; [apply hc_curve_ok; exact C|apply ext_refl|]. intros h' u u' _ E [-> _].
  eapply ref_bind0; [apply hc_type_ok; exact C|apply ext_refl|]. intros h' t t' _ _ [-> ->]. apply guard_kept.
Qed.
Lemma hc_clone_points_ok h c v : cval h c v ->
  refines [] h h (let! c := hc_clone c in hc_points c) pvals (c_points v).
Proof.
  intros C. apply hunwrap_ok in C. assert (F := hunwrap_flat c). unfold hc_clone, c_points.
  destruct (hunwrap c), (unwrap v); simpl in C; try contradiction; try (apply ref_panic; apply ext_refl);
  (apply ref_assoc'; eapply ref_step; [apply hmapp_clone_ok; exact C|apply ext_refl|wr|]; intros h1 l1 E1 _ P1;
   apply ref_ret; [exact E1|exact P1]).
Qed.
Lemma hc_clone_ok h c v : cval h c v -> match unwrap v with CSimple _ | CPedersen _ => True | _ => False end ->
  refines [] h h (hc_clone c) cval (Ok (unwrap v)).
Proof.
  intros C. apply hunwrap_ok in C. assert (F := hunwrap_flat c). unfold hc_clone.
  destruct (hunwrap c), (unwrap v); simpl in C; try contradiction; intros _;
  (eapply ref_step; [apply hmapp_clone_ok; exact C|apply ext_refl|wr|]; intros h1 l1 E1 _ P1; apply ref_ret; [exact E1|exact P1]).
Qed.

(** ** Random polynomials *)
Definition qr (h : heap) (a : ptr * rng) (b : poly * rng) : Prop := qval h (fst a) (fst b) /\ snd a = snd b.
Lemma q_random_coeffs_ok : forall n h rn,
  refines [] h h (q_random_coeffs n rn) (fun h' a b => svals h' (fst a) (fst b) /\ snd a = snd b) (random_scalars n rn).
Proof.
  induction n as [|n IH]; intros h rn; simpl.
  - apply ref_ret; [apply ext_refl|]. split; [constructor|reflexivity].
  - apply ref_lift_bind; [apply ext_refl|]. intros [s r] _. cbn [fst snd]. nx s_new_ok.
    eapply ref_bind0; [apply IH|base|]. intros h2 [l r1] [lv r2] E2 F2 [S2 Er]. cbn [fst snd] in *. subst r2.
    apply ref_ret; [exact F2|]. split; [|reflexivity]. constructor; [gt|exact S2].
Qed.
Lemma q_random_ok h num rn : refines [] h h (q_random num rn) qr (poly_random num rn).
Proof.
  unfold q_random, poly_random. destruct (num <? 0); [apply ref_panic, ext_refl|]. rewrite <- (bind_ret (random_scalars _ _)).
  eapply ref_bind0; [apply q_random_coeffs_ok|apply ext_refl|]. intros h1 [l r] [lv r'] E1 F1 [S1 Er]. cbn [fst snd] in *. subst r'.
  eapply ref_step; [apply q_new_ok|exact F1|wr|]. intros h2 p E2 F2 [G2 _]. apply ref_ret; [exact F2|]. split; [|reflexivity].
  exists l. split; [exact G2|]. now apply (svals_ext h1).
Qed.
Lemma q_random_with_constant_ok h c v num rn : get h c = Some (VS v) ->
  refines [] h h (q_random_with_constant c num rn) qr (poly_random_with_constant v num rn).
Proof.
  intros Gc. unfold q_random_with_constant, poly_random_with_constant. destruct (num =? 0); [apply ref_err, ext_refl|].
  destruct (num <? 0); [apply ref_panic, ext_refl|].
  eapply ref_bind0; [apply q_random_coeffs_ok|apply ext_refl|]. intros h1 [l r] [lv r'] E1 F1 [S1 Er]. cbn [fst snd] in *. subst r'.
  eapply ref_step; [apply q_new_ok|exact F1|wr|]. intros h2 p E2 F2 [G2 _]. apply ref_ret; [exact F2|]. split; [|reflexivity].
  exists (c :: l). split; [exact G2|]. constructor; [gt|now apply (svals_ext h1)].
Qed.

(** ** Dealings *)
Definition zv (h : heap) (p : hzkproof) (v : zkproof) : Prop :=
  match p, v with
  | HPNone, PNone => True
  | HPMasked p, PMasked v => eov h p v
  | HPProduct p, PProduct v => prv h p v
  | _, _ => False
  end.
Definition dv (h : heap) (d : hdealing) (v : dealing) : Prop :=
  ctv h (hd_ct d) (d_ct v) /\ cval h (hd_cm d) (d_cm v) /\ zv h (hd_proof d) (d_proof v).
Definition shv (h : heap) (s : hshares) (v : shares) : Prop :=
  match s, v with
  | HSRandom, SRandom | HSOther, SOther => True
  | HSReshareUnmasked p, SReshareUnmasked a => get h p = Some (VS a)
  | HSReshareMasked p m, SReshareMasked a b => get h p = Some (VS a) /\ get h m = Some (VS b)
  | HSTimes p m r, STimes a b c => get h p = Some (VS a) /\ get h m = Some (VS b) /\ get h r = Some (VS c)
  | _, _ => False
  end.
Definition opv (h : heap) (o : hoperation) (v : operation) : Prop :=
  match o, v with
  | HTRandom, TRandom | HTOther, TOther => True
  | HTReshareUnmasked c, TReshareUnmasked a => cval h c a
  | HTReshareMasked c, TReshareMasked a => cval h c a
  | HTTimes c e, TTimes a b => cval h c a /\ cval h e b
  | _, _ => False
  end.
Lemma zv_ext h h' p v : ext h h' -> zv h p v -> zv h' p v.
Proof. intros E. destruct p, v; simpl; auto; [now apply eov_ext|now apply prv_ext]. Qed.
Lemma dv_ext h h' d v : ext h h' -> dv h d v -> dv h' d v.
Proof. intros E (A & B & C). split; [now apply (ctv_ext h)|]. split; [now apply (cval_ext h)|now apply (zv_ext h)]. Qed.
Lemma dvs_ext h h' ds vs : ext h h' -> Forall2 (zrel (dv h)) ds vs -> Forall2 (zrel (dv h')) ds vs.
Proof. intros E. apply zrel_mono. intros a b. now apply dv_ext. Qed.

Lemma h_encrypt_and_commit_single_ok h po num rc dealer ad seed pv rcv : qval h po pv -> pvals h rc rcv ->
  refines [] h h (h_encrypt_and_commit_single po num rc dealer ad seed) (fun h' a b => ctv h' (fst a) (fst b) /\ cval h' (snd a) (snd b))
    (encrypt_and_commit_single pv num rcv dealer ad seed).
Proof.
  intros Q P. unfold h_encrypt_and_commit_single, encrypt_and_commit_single. cbv zeta. rewrite <- (pvals_length _ _ _ P).
  eapply ref_step; [apply hmap_new with (g := fun i => evaluate_at pv (from_node_index (Z.of_nat i)))|apply ext_refl|wr|].
  - intros h1 i E1 _. nx s_new_ok. eapply ref_last; [eapply q_evaluate_at_ok; [eapply qval_ext; [|exact Q]; eapply ext_trans; eassumption|gt]|eassumption|wr|].
    intros h' p w E' [A B]. split; [exact A|lia].
  - intros h1 pl E1 _ (S1 & _ & _). eapply ref_bind0; [apply h_encrypt_single_ok; [exact S1|eapply pvals_ext; [exact E1|exact P]]|exact E1|].
    intros h2 ct ctw E2 F2 C2. eapply ref_bind0; [apply hc_simple_create_ok; eapply qval_ext; [exact F2|exact Q]|exact F2|].
    intros h3 cm cmv E3 F3 C3. apply ref_ret; [exact F3|]. cbn [fst snd]. split; [now apply (ctv_ext h2)|eapply newc_cval; exact C3].
Qed.
Lemma h_encrypt_and_commit_pair_ok h va ma num rc dealer ad seed vv mv rcv : qval h va vv -> qval h ma mv -> pvals h rc rcv ->
  refines [] h h (h_encrypt_and_commit_pair va ma num rc dealer ad seed) (fun h' a b => ctv h' (fst a) (fst b) /\ cval h' (snd a) (snd b))
    (encrypt_and_commit_pair vv mv num rcv dealer ad seed).
Proof.
  intros Q Q2 P. unfold h_encrypt_and_commit_pair, encrypt_and_commit_pair. cbv zeta. rewrite <- (pvals_length _ _ _ P).
  set (g := fun i : nat => (evaluate_at vv (from_node_index (Z.of_nat i)), evaluate_at mv (from_node_index (Z.of_nat i)))).
  eapply ref_step with (ws1 := []) (R1 := fun h' a b => Forall2 (pair_val h') a b) (b := map g (seq 0 (List.length rc))); [|apply ext_refl|wr|].
  - replace (Ok (map g (seq 0 (List.length rc)))) with (mapM (fun i => Ok (g i)) (seq 0 (List.length rc))).
    + apply hmapr with (Q := fun _ a b => a = b); auto.
      * intros k k' x y. apply pair_val_ext.
      * apply f2_refl.
      * intros k i ? Ek <-. nx s_new_ok.
        eapply ref_step; [eapply q_evaluate_at_ok; [eapply qval_ext; [|exact Q]; eapply ext_trans; eassumption|gt]|base|wr|].
        intros k2 x2 E2 F2 [G2 L2]. lens.
        eapply ref_step; [eapply q_evaluate_at_ok; [eapply qval_ext; [|exact Q2]; eapply ext_trans; eassumption|gt]|base|wr|].
        intros k3 x3 E3 F3 [G3 L3]. apply ref_ret; [exact F3|]. split; cbn [fst snd]; gt.
    + induction (seq 0 (List.length rc)) as [|i l IH]; simpl; [reflexivity|]. now rewrite IH.
  - intros h1 pl E1 _ S1. eapply ref_bind0; [apply h_encrypt_pair_ok; [exact S1|eapply pvals_ext; [exact E1|exact P]]|exact E1|].
    intros h2 ct ctw E2 F2 C2. eapply ref_bind0; [apply hc_pedersen_create_ok; [eapply qval_ext; [exact F2|exact Q]|eapply qval_ext; [exact F2|exact Q2]]|exact F2|].
    intros h3 cm cmv E3 F3 C3. apply ref_ret; [exact F3|]. cbn [fst snd]. split; [now apply (ctv_ext h2)|eapply newc_cval; exact C3].
Qed.
Lemma h_new_dealing_ok h sh seed t rc dealer ad shw rcv : shv h sh shw -> pvals h rc rcv ->
  refines [] h h (h_new_dealing sh seed t rc dealer ad) dv (new_dealing shw seed t rcv dealer ad).
Proof.
  intros S P. unfold h_new_dealing, new_dealing. rewrite <- (pvals_length _ _ _ P).
  destruct (_ || _); [apply ref_err, ext_refl|]. nl. nl. nl. destruct sh, shw; simpl in S; try contradiction.
  - eapply ref_bind0; [apply q_random_ok|base|]. intros h1 [v r] [vv r'] E1 F1 [Q1 Er]. cbn [fst snd] in *. subst r'.
    eapply ref_bind0; [apply q_random_ok|base|]. intros h2 [m r2] [mv r'] E2 F2 [Q2 Er]. cbn [fst snd] in *. subst r'.
    eapply ref_bind0; [apply h_encrypt_and_commit_pair_ok; [eapply qval_ext; [exact E2|exact Q1]|exact Q2|eapply pvals_ext; [exact F2|exact P]]|base|].
    intros h3 [c1 c2] [c1v c2v] E3 F3 [C3 C4]. apply ref_ret; [exact F3|]. repeat split; assumption.
  - eapply ref_bind0; [apply q_random_with_constant_ok; exact S|base|]. intros h1 [v r] [vv r'] E1 F1 [Q1 Er]. cbn [fst snd] in *. subst r'.
    eapply ref_bind0; [apply h_encrypt_and_commit_single_ok; [exact Q1|eapply pvals_ext; [exact F1|exact P]]|base|].
    intros h3 [c1 c2] [c1v c2v] E3 F3 [C3 C4]. apply ref_ret; [exact F3|]. repeat split; assumption.
  - destruct S as [S1 S2]. lens. eapply ref_bind0; [apply q_random_with_constant_ok; exact S1|base|]. intros h1 [v r] [vv r'] E1 F1 [Q1 Er]. cbn [fst snd] in *. subst r'.
    eapply ref_bind0; [apply h_encrypt_and_commit_single_ok; [exact Q1|eapply pvals_ext; [exact F1|exact P]]|base|].
    intros h3 [c1 c2] [c1v c2v] E3 F3 [C3 C4]. cbn [fst snd] in *. nl. lens. nb h_eqo_create_ok. apply ref_ret; [assumption|].
    split; [|split]; cbn [hd_ct hd_cm hd_proof d_ct d_cm d_proof zv]; [now apply (ctv_ext h3)|now apply (cval_ext h3)|assumption].
  - destruct S as (S1 & S2 & S3). lens. nx s_clone_ok. nx s_mul_ok. nr.
    match goal with |- refines _ _ ?x _ _ _ => rename x into hx end. assert (Fx : ext h hx) by assumption.
    eapply ref_bind0; [eapply q_random_with_constant_ok; gt|base|]. intros h4 [w r4] [vv r'] E4 F4 [Q4 Er]. cbn [fst snd] in *. subst r'. lens.
    eapply ref_bind0; [apply or_panic_ok; eapply q_random_with_constant_ok; gt|base|]. intros h5 [m r5] [mv r'] E5 F5 [Q5 Er]. cbn [fst snd] in *. subst r'. lens.
    eapply ref_bind0; [apply h_encrypt_and_commit_pair_ok; [eapply qval_ext; [exact E5|exact Q4]|exact Q5|eapply pvals_ext; [exact F5|exact P]]|base|].
    intros h6 [c1 c2] [c1v c2v] E6 F6 [C3 C4]. cbn [fst snd] in *. nl. lens.
    eapply ref_bind0; [apply or_panic_ok; eapply h_prod_create_ok; gt|base|]. intros h7 pf pfv E7 F7 D7. apply ref_ret; [exact F7|].
    split; [|split]; cbn [hd_ct hd_cm hd_proof d_ct d_cm d_proof zv]; [now apply (ctv_ext h6)|now apply (cval_ext h6)|assumption].
  - apply ref_ret; [apply ext_refl|]. repeat split.
Qed.

(** ** Verification *)
Lemma h_publicly_verify_ok h d op t dealer rcs ad v ov : dv h d v -> opv h op ov ->
  refines [] h h (h_publicly_verify d op t dealer rcs ad) (fun _ _ _ => True) (publicly_verify v ov t dealer rcs ad).
Proof.
  intros (Dc & Dm & Dp) O. unfold h_publicly_verify, publicly_verify.
  eapply ref_bind0; [apply hc_len_ok; exact Dm|base|]. intros h' n n' _ _ [-> ->].
  destruct (negb (n' =? t)); [apply ref_err, ext_refl|].
  eapply ref_bind0; [apply hc_curve_ok; exact Dm|base|]. intros h' u u' _ _ [-> _].
  eapply ref_bind0; [apply hm_check_validity_ok; exact Dc|base|]. intros h1 u1 u1' E1 F1 _.
  apply (ctv_ext _ _ _ _ E1) in Dc. apply (cval_ext _ _ _ E1) in Dm. apply (zv_ext _ _ _ _ E1) in Dp.
  eapply ref_last0 with (R := fun _ _ _ => True); [|exact F1|auto].
  assert (KM : forall ty, refines [] h1 h1 (hc_verify_is (hd_cm d) ty) (kept h1 eq) (c_verify_is (d_cm v) ty)) by (intros; now apply hc_verify_is_ok).
  assert (KT : forall ty, refines [] h1 h1 (hm_verify_is (hd_ct d) ty) (fun h' _ _ => h' = h1) (m_verify_is (d_ct v) ty)) by (intros; now apply hm_verify_is_ok).
  destruct op, ov; simpl in O; try contradiction; destruct (hd_proof d), (d_proof v); simpl in Dp; try contradiction;
    try (apply ref_err, ext_refl); try (apply ref_panic, ext_refl).
  - eapply ref_bind0; [apply KM|base|]. intros h' w w' _ _ [-> _]. eapply ref_last0; [apply KT|base|auto].
  - apply (cval_ext _ _ _ E1) in O.
    eapply ref_bind0; [apply KM|base|]. intros h' w w' _ _ [-> _].
    eapply ref_bind0; [apply hc_verify_is_ok; exact O|base|]. intros h' w1 w1' _ _ [-> _].
    eapply ref_bind0; [apply KT|base|]. intros h' w2 w2' _ _ ->.
    destruct p, p0; simpl in O; try contradiction; try (apply ref_err, ext_refl); try (apply ref_ret; [apply ext_refl|exact I]).
    eapply ref_bind0; [apply h_eval_points_ok; exact O|base|]. intros h2 e ev E2 F2 [Ge Le]. lens.
    eapply ref_bind0; [apply hc_constant_term_ok; eapply cval_ext; [exact E2|exact Dm]|base|]. intros h3 k kv E3 F3 [Gk Lk]. lens.
    nx p_equal_ok. subst. eapply ref_last0; [apply hguard_ok|assumption|auto].
  - apply (cval_ext _ _ _ E1) in O.
    eapply ref_bind0; [apply KM|base|]. intros h' w w' _ _ [-> _].
    eapply ref_bind0; [apply KT|base|]. intros h' w2 w2' _ _ ->.
    eapply ref_bind0; [apply hc_eval_ok; exact O|base|]. intros h2 e ev E2 F2 [Ge Le]. lens.
    eapply ref_bind0; [apply hc_constant_term_ok; eapply cval_ext; [exact E2|exact Dm]|base|]. intros h3 k kv E3 F3 [Gk Lk]. lens.
    eapply ref_last0; [eapply h_eqo_verify_ok; [gt|gt|eapply eov_ext; [exact F3|exact Dp]]|exact F3|auto].
  - destruct O as [O1 O2]. apply (cval_ext _ _ _ E1) in O1. apply (cval_ext _ _ _ E1) in O2.
    eapply ref_bind0; [apply KM|base|]. intros h' w w' _ _ [-> _].
    eapply ref_bind0; [apply KT|base|]. intros h' w2 w2' _ _ ->.
    eapply ref_bind0; [apply hc_verify_is_ok; exact O1|base|]. intros h' w3 w3' _ _ [-> _].
    eapply ref_bind0; [apply hc_verify_is_ok; exact O2|base|]. intros h' w4 w4' _ _ [-> _].
    eapply ref_bind0; [apply hc_eval_ok; exact O1|base|]. intros h2 e ev E2 F2 [Ge Le]. lens.
    eapply ref_bind0; [apply hc_eval_ok; eapply cval_ext; [exact E2|exact O2]|base|]. intros h3 e3 ev3 E3 F3 [Ge3 Le3]. lens.
    eapply ref_bind0; [apply hc_constant_term_ok; eapply cval_ext; [exact F3|exact Dm]|base|]. intros h4 k kv E4 F4 [Gk Lk]. lens.
    eapply ref_last0; [eapply h_prod_verify_ok; [gt|gt|gt|eapply prv_ext; [exact F4|exact Dp]]|exact F4|auto].
Qed.
Lemma h_private_verify_ok h d sk pk ad dealer rc v skv pkv : dv h d v -> get h sk = Some (VS skv) -> get h pk = Some (VP pkv) ->
  refines [] h h (h_private_verify d sk pk ad dealer rc) (fun _ _ _ => True) (private_verify v skv pkv ad dealer rc).
Proof.
  intros (Dc & Dm & Dp) Gs Gp. unfold h_private_verify, private_verify. lens.
  eapply ref_bind0; [apply hc_constant_term_ok; exact Dm|base|]. intros h1 a b E1 F1 _. lens.
  eapply ref_bind0; [eapply hm_decrypt_and_check_ok; [eapply ctv_ext; [exact E1|exact Dc]|eapply cval_ext; [exact E1|exact Dm]|gt|gt]|base|].
  intros h2 o ov E2 F2 _. apply ref_ret; [exact F2|exact I].
Qed.

(** ** Transcripts *)
Lemma h_check_lengths_ok h t : forall ds vs, Forall2 (zrel (dv h)) ds vs -> refines [] h h (h_check_lengths ds t) (kept h eq) (check_lengths vs t).
Proof.
  induction 1 as [|[i d] [j v] ds vs [Ei (Dc & Dm & Dp)] F IH]; simpl in *; [apply ref_ret; [apply ext_refl|now split]|].
  eapply ref_bind0; [apply hc_len_ok; exact Dm|base|]. intros h' n n' _ _ [-> ->].
  destruct (negb (n' =? t)); [apply ref_err, ext_refl|exact IH].
Qed.
Lemma h_sum_points_ok : forall acc accv h pts ptv, NoDup acc -> pvals h acc accv -> pvals h pts ptv -> (forall p, In p acc -> ~ In p pts) ->
  refines acc h h (h_sum_points acc pts) (fun h' l vs => l = acc /\ pvals h' acc vs) (sum_points accv ptv).
Proof.
  induction acc as [|a acc IH]; intros accv h pts ptv N A P D; inversion A as [|x av y accv' Ga A' ]; subst.
  - apply ref_ret; [apply ext_refl|]. split; [reflexivity|constructor].
  - inversion N as [|x y Na N']; subst. destruct P as [|p pv pts ptv Gp P]; [apply ref_panic, ext_refl|]. simpl.
    eapply ref_step; [eapply p_add_ok; eassumption|apply ext_refl|intros q [<-|[]]; left; now left|]. intros h1 q E1 F1 [-> G1].
    eapply ref_bind; [apply IH with (accv := accv') (ptv := ptv)|exact F1|intros q I; left; now right|].
    + exact N'.
    + eapply pvals_but; [exact E1| |exact A']. intros q [<-|[]]. exact Na.
    + eapply pvals_but; [exact E1| |exact P]. intros q [<-|[]] I. apply (D a); [now left|now right].
    + intros q I1 I2. apply (D q); now right.
    + intros h2 l vs E2 F2 [-> P2]. apply ref_ret; [exact F2|]. split; [reflexivity|].
      constructor; [now apply (but_get acc h1)|exact P2].
Qed.
Lemma h_sum_dealings_ok h0 : forall ds vs, Forall2 (zrel (dv h0)) ds vs -> forall h acc accv, ext h0 h -> pvals h acc accv ->
  Forall (fun p => (List.length h0 <= p)%nat) acc -> NoDup acc ->
  refines [] h0 h (h_sum_dealings acc ds) pvals (sum_dealings accv vs).
Proof.
  induction 1 as [|[i d] [j v] ds vs [Ei Dv] F IH]; intros h acc accv E A L N; simpl in *; [now apply ref_ret|].
  destruct Dv as (_ & Dm & _). pose proof (cval_ext _ _ _ E _ Dm) as Dh.
  eapply ref_bind0; [apply hc_type_ok; exact Dh|exact E|]. intros h' t t' _ _ [-> ->].
  destruct (negb (t' =? ct_pedersen)); [now apply ref_err|].
  eapply ref_bind0 with (R1 := fun h' l vs => h' = h /\ pvals h l vs /\ pvals h0 l vs); [|exact E|].
  - assert (K0 := hc_points_ok h0 _ _ Dm). assert (K1 := hc_points_ok h _ _ Dh). unfold hc_points, c_points in *.
    destruct (hunwrap (hd_cm d)), (unwrap (d_cm v)); destruct K0 as [_ K0], K1 as [K1 K2]; simpl in *; try contradiction;
      split; simpl; intuition.
  - intros h' l lv _ _ (-> & P & P0). eapply ref_bind; [apply h_sum_points_ok|exact E| |].
    + exact N.
    + exact A.
    + exact P.
    + intros q I1 I2. rewrite Forall_forall in L. specialize (L _ I1).
      assert (q < List.length h0)%nat; [|lia]. clear - P0 I2. induction P0; destruct I2; subst; auto. eapply get_lt; eauto.
    + intros q I. right. rewrite Forall_forall in L. auto.
    + intros h1 l1 vs1 E1 F1 [-> P1]. now apply IH.
Qed.
Lemma hc_first_ok h c v : cval h c v -> refines [] h h (hc_first c) (fun h' a b => h' = h /\ get h a = Some (VP b)) (c_constant_term v).
Proof.
  intros C. unfold hc_first, c_constant_term. eapply ref_bind0; [apply hc_points_ok; exact C|base|]. intros h' l vs _ E [-> P].
  destruct P; [now apply ref_panic|]. apply ref_ret; [exact E|now split].
Qed.
Lemma h_combine_interp_ok h ty t ds vs : Forall2 (zrel (dv h)) ds vs ->
  refines [] h h (h_combine_interp ty t ds) cval (combine_interp ty t vs).
Proof.
  intros D. unfold h_combine_interp, combine_interp. rewrite (zrel_fst _ _ _ D).
  eapply ref_bind0; [|apply ext_refl|].
  { apply hmapr with (Q := fun k => zrel (dv k)) (R := pvals).
    - intros k k' a b E [A B]. split; [exact A|now apply (dv_ext k)].
    - intros k k' a b. apply pvals_ext.
    - exact D.
    - intros k a b E (_ & _ & Dm & _). now apply hc_clone_points_ok. }
  intros h1 cms cmsv E1 _ P1. eapply ref_bind0; [apply l_at_zero_ok|exact E1|]. intros h2 cs csv E2 F2 (S2 & _ & _).
  nl. eapply ref_bind0 with (R1 := pvals); [|exact F2|].
  { apply hmapr with (Q := fun _ a b => a = b); auto.
    - intros k k' x y. apply ext_get.
    - apply f2_refl.
    - intros k i ? Ek <-. eapply ref_bind0 with (R1 := pvals); [|apply ext_refl|].
      + apply hmapr with (Q := pvals) (R := fun k p v => get k p = Some (VP v)).
        * intros k1 k2 x y. apply pvals_ext.
        * intros k1 k2 x y. apply ext_get.
        * eapply f2_mono; [|exact P1]. intros x y. apply pvals_ext. eapply ext_trans; [exact E2|exact Ek].
        * intros k1 x y Ek1 P. unfold hnth, nth_or_panic. destruct (f2_nth _ _ _ P i) as [(c & v & -> & -> & G1)|[-> ->]].
          -- now split; [apply ext_refl|].
          -- now split; [apply ext_refl|].
      + intros k1 vals valsv E3 _ P3. eapply ref_last0; [apply l_interpolate_point_ok; [|exact P3]|exact E3|].
        * eapply svals_ext; [|exact S2]. eapply ext_trans; [exact Ek|exact E3].
        * intros k2 x y _ [A _]. exact A. }
  intros h3 pts ptsv E3 F3 P3. apply ref_ret; [exact F3|]. simpl. destruct (ty =? ct_simple); [exact P3|].
  destruct (ty =? ct_pedersen); [exact P3|exact I].
Qed.
Definition trv (h : heap) (c : hcommitment) (t : transcript) : Prop := cval h c (tr_commitment t).
Lemma h_new_transcript_ok h t ds op vs ov : Forall2 (zrel (dv h)) ds vs -> opv h op ov ->
  refines [] h h (h_new_transcript t ds op) trv (new_transcript t vs ov).
Proof.
  intros D O. assert (LD := f2_length _ _ _ D). unfold h_new_transcript, new_transcript.
  eapply ref_bind0; [apply h_check_lengths_ok; exact D|base|]. intros h' u u' _ _ [-> _].
  assert (KI : forall ty, refines [] h h (h_combine_interp ty t ds) trv (do c <- combine_interp ty t vs; Ok (mktranscript c))).
  { intros ty. destruct (h_combine_interp_ok h ty t ds vs D) as [A B]. split; [exact A|].
    destruct (snd (h_combine_interp ty t ds h)), (combine_interp ty t vs); simpl in *; try contradiction; auto. }
  destruct op, ov; simpl in O; try contradiction.
  - nl. eapply ref_step with (ws1 := []) (R1 := newps h) (b := repeat gzero a); [|base|wr|].
    + replace (repeat gzero a) with (map (fun _ : unit => gzero) (repeat tt a)) by (induction a; simpl; congruence).
      apply hmapp_new. intros. apply p_new_ok.
    + intros h1 acc E1 F1 (P1 & L1 & N1). eapply ref_seq; [eapply h_sum_dealings_ok; [exact D|exact E1|exact P1|exact L1|exact N1]|].
      intros h2 l lv E2 P2. apply ref_ret; [exact E2|exact P2].
  - eapply ref_bind0; [apply hc_type_ok; exact O|base|]. intros h' ty ty' _ _ [-> ->].
    destruct (negb _); [apply ref_err, ext_refl|].
    eapply ref_bind0; [apply hc_len_ok; exact O|base|]. intros h' n n' _ _ [-> ->]. rewrite LD.
    destruct (_ <? n'); [apply ref_err, ext_refl|].
    eapply ref_bind0; [apply h_combine_interp_ok; exact D|base|]. intros h1 c cv E1 F1 C1.
    eapply ref_bind0; [apply hc_first_ok; eapply cval_ext; [exact E1|exact O]|exact F1|]. intros h' a av _ _ [-> Ga].
    eapply ref_bind0; [apply hc_first_ok; exact C1|exact F1|]. intros h' b bv _ _ [-> Gb]. lens.
    nx p_equal_ok. subst. destruct (geqb av bv); [|now apply ref_err]. apply ref_ret; [assumption|]. unfold trv. simpl.
    eapply cval_ext; [|exact C1]. assumption.
  - eapply ref_bind0; [apply hc_type_ok; exact O|base|]. intros h' ty ty' _ _ [-> ->].
    destruct (negb _); [apply ref_err, ext_refl|].
    eapply ref_bind0; [apply hc_len_ok; exact O|base|]. intros h' n n' _ _ [-> ->]. rewrite LD.
    destruct (_ <? n'); [apply ref_err, ext_refl|apply KI].
  - destruct O as [O1 O2]. eapply ref_bind0; [apply hc_type_ok; exact O1|base|]. intros h' ty ty' _ _ [-> ->].
    destruct (negb _); [apply ref_err, ext_refl|].
    eapply ref_bind0; [apply hc_type_ok; exact O2|base|]. intros h' ty2 ty2' _ _ [-> ->].
    destruct (negb _); [apply ref_err, ext_refl|].
    eapply ref_bind0; [apply hc_len_ok; exact O1|base|]. intros h' n n' _ _ [-> ->].
    eapply ref_bind0; [apply hc_len_ok; exact O2|base|]. intros h' m m' _ _ [-> ->]. rewrite LD.
    destruct (_ <? _); [apply ref_err, ext_refl|apply KI].
  - apply ref_ret; [apply ext_refl|exact I].
Qed.

(** ** Openings *)
Lemma h_collect_simple_ok h : forall os vs, Forall2 (zrel (oval h)) os vs ->
  refines [] h h (h_collect_simple os) (kept h (Forall2 (zrel (fun p v => get h p = Some (VS v))))) (collect_simple vs).
Proof.
  induction 1 as [|[i o] [j v] os vs [Ei O] F IH]; simpl in *; [apply ref_ret; [apply ext_refl|split; [reflexivity|constructor]]|].
  destruct o, v; simpl in O; try contradiction; try exact IH; [|apply ref_err, ext_refl].
  eapply ref_bind0; [exact IH|base|]. intros h' r rv _ E [-> K]. apply ref_ret; [exact E|]. split; [reflexivity|].
  constructor; [now split|exact K].
Qed.
Lemma h_collect_pedersen_ok h : forall os vs, Forall2 (zrel (oval h)) os vs ->
  refines [] h h (h_collect_pedersen os) (kept h (Forall2 (zrel (pair_val h)))) (collect_pedersen vs).
Proof.
  induction 1 as [|[i o] [j v] os vs [Ei O] F IH]; simpl in *; [apply ref_ret; [apply ext_refl|split; [reflexivity|constructor]]|].
  destruct o, v; simpl in O; try contradiction; try exact IH; [apply ref_err, ext_refl|].
  eapply ref_bind0; [exact IH|base|]. intros h' r rv _ E [-> K]. apply ref_ret; [exact E|]. split; [reflexivity|].
  constructor; [split; [exact Ei|exact O]|exact K].
Qed.
Lemma h_zip_simple_ok h : forall os vs, Forall2 (oval h) os vs -> forall ixs,
  refines [] h h (h_zip_simple ixs os) (kept h (Forall2 (zrel (fun p v => get h p = Some (VS v))))) (zip_simple ixs vs).
Proof.
  induction 1 as [|o v os vs O F IH]; intros ixs; [destruct ixs; (apply ref_ret; [apply ext_refl|split; [reflexivity|constructor]])|].
  destruct ixs as [|x ixs]; simpl; [apply ref_panic, ext_refl|].
  destruct o, v; simpl in O; try contradiction; try (apply ref_err, ext_refl).
  eapply ref_bind0; [apply IH|base|]. intros h' r rv _ E [-> K]. apply ref_ret; [exact E|]. split; [reflexivity|].
  constructor; [now split|exact K].
Qed.
Lemma h_zip_pedersen_ok h : forall os vs, Forall2 (oval h) os vs -> forall ixs,
  refines [] h h (h_zip_pedersen ixs os) (kept h (Forall2 (zrel (pair_val h)))) (zip_pedersen ixs vs).
Proof.
  induction 1 as [|o v os vs O F IH]; intros ixs; [destruct ixs; (apply ref_ret; [apply ext_refl|split; [reflexivity|constructor]])|].
  destruct ixs as [|x ixs]; simpl; [apply ref_panic, ext_refl|].
  destruct o, v; simpl in O; try contradiction; try (apply ref_err, ext_refl).
  eapply ref_bind0; [apply IH|base|]. intros h' r rv _ E [-> K]. apply ref_ret; [exact E|]. split; [reflexivity|].
  constructor; [split; [reflexivity|exact O]|exact K].
Qed.
Lemma pairs_fst h vs ws : Forall2 (zrel (pair_val h)) vs ws -> svals h (map (fun e => fst (snd e)) vs) (map (fun e => fst (snd e)) ws).
Proof. induction 1 as [|a b la lb [_ [E _]] F IH]; simpl; constructor; auto. Qed.
Lemma pairs_snd h vs ws : Forall2 (zrel (pair_val h)) vs ws -> svals h (map (fun e => snd (snd e)) vs) (map (fun e => snd (snd e)) ws).
Proof. induction 1 as [|a b la lb [_ [_ E]] F IH]; simpl; constructor; auto. Qed.
(** interpolation of collected scalars, given how the Lagrange coefficients are computed *)
Lemma interp_simple h0 h (L : list Z -> M (list ptr)) (LV : list Z -> res (list Fq)) vs ws : ext h0 h ->
  (forall l h, ext h0 h -> refines [] h h (L l) (newss h) (LV l)) -> Forall2 (zrel (fun p v => get h p = Some (VS v))) vs ws ->
  refines [] h h (let! cs := L (map fst vs) in let! v := l_interpolate_scalar cs (map snd vs) in hret (HOSimple v)) (newo h)
    (do cs <- LV (map fst ws); do v <- interpolate_scalar cs (map snd ws); Ok (OSimple v)).
Proof.
  intros E0 K S. rewrite (zrel_fst _ _ _ S). apply zrel_snd in S.
  eapply ref_bind0; [apply K; exact E0|base|]. intros h1 cs csv E1 F1 (S1 & _ & _).
  eapply ref_bind0; [apply l_interpolate_scalar_ok; [exact S1|eapply svals_ext; [exact E1|exact S]]|exact F1|].
  intros h2 v vv E2 F2 [G2 L2]. apply ref_ret; [exact F2|]. split; [exact G2|lens; lia].
Qed.
Lemma interp_pedersen h0 h (L : list Z -> M (list ptr)) (LV : list Z -> res (list Fq)) vs ws : ext h0 h ->
  (forall l h, ext h0 h -> refines [] h h (L l) (newss h) (LV l)) -> Forall2 (zrel (pair_val h)) vs ws ->
  refines [] h h (let! cs := L (map fst vs) in let! v := l_interpolate_scalar cs (map (fun e => fst (snd e)) vs) in
                  let! m := l_interpolate_scalar cs (map (fun e => snd (snd e)) vs) in hret (HOPedersen v m)) (newo h)
    (do cs <- LV (map fst ws); do v <- interpolate_scalar cs (map (fun e => fst (snd e)) ws);
     do m <- interpolate_scalar cs (map (fun e => snd (snd e)) ws); Ok (OPedersen v m)).
Proof.
  intros E0 K S. rewrite (zrel_fst _ _ _ S). assert (Sf := pairs_fst _ _ _ S). assert (Ss := pairs_snd _ _ _ S).
  eapply ref_bind0; [apply K; exact E0|base|]. intros h1 cs csv E1 F1 (S1 & _ & _).
  eapply ref_bind0; [apply l_interpolate_scalar_ok; [exact S1|eapply svals_ext; [exact E1|exact Sf]]|exact F1|].
  intros h2 v vv E2 F2 [G2 L2]. lens.
  eapply ref_bind0; [apply l_interpolate_scalar_ok; [eapply svals_ext; [exact E2|exact S1]|eapply svals_ext; [exact F2|exact Ss]]|exact F2|].
  intros h3 m mv E3 F3 [G3 L3]. lens. apply ref_ret; [exact F3|]. split; [split; [gt|exact G3]|lia].
Qed.
Lemma return_newo h0 h c v i o ov : ext h0 h -> cval h c v -> newo h0 h o ov ->
  refines [] h0 h (hc_return_if_consistent c i o) (newo h0) (c_return_if_consistent v i ov).
Proof.
  intros E C [O N]. eapply ref_last0; [apply hc_return_if_consistent_ok; eassumption|exact E|]. intros h' a b _ [-> O']. now split.
Qed.
Lemma h_reconstruct_share_ok h d os ix v vs : dv h d v -> Forall2 (zrel (oval h)) os vs ->
  refines [] h h (h_reconstruct_share d os ix) (newo h) (reconstruct_share v vs ix).
Proof.
  intros (Dc & Dm & Dp) O. unfold h_reconstruct_share, reconstruct_share. cbv zeta. rewrite (f2_length _ _ _ O).
  eapply ref_bind0; [apply hc_len_ok; exact Dm|base|]. intros h' n n' _ _ [-> ->]. destruct (_ <? n'); [apply ref_err, ext_refl|].
  eapply ref_bind0; [apply hc_curve_ok; exact Dm|base|]. intros h' u u' _ _ [-> _].
  eapply ref_step; [apply s_new_ok|base|wr|]. intros h1 x E1 _ [G1 L1].
  apply (cval_ext _ _ _ E1) in Dm. assert (O1 : Forall2 (zrel (oval h1)) os vs) by (eapply zrel_mono; [|exact O]; intros a b; now apply oval_ext).
  assert (KL : forall l h2, ext h1 h2 -> refines [] h2 h2 (l_at_value x l) (newss h2) (lagrange_at_value (from_node_index ix) l)).
  { intros l h2 E2. apply l_at_value_ok. now apply (ext_get h1). }
  eapply ref_bind0 with (R1 := newo h1); [|exact E1|].
  - destruct (hd_cm d), (d_cm v); simpl in Dm; try contradiction; try (apply ref_ret; [apply ext_refl|split; exact I]).
    + eapply ref_bind0; [apply h_collect_simple_ok; exact O1|base|]. intros h' r rv _ _ [-> K].
      now apply (interp_simple h1 h1 (l_at_value x) (lagrange_at_value (from_node_index ix))); [apply ext_refl| |].
    + eapply ref_bind0; [apply h_collect_pedersen_ok; exact O1|base|]. intros h' r rv _ _ [-> K].
      now apply (interp_pedersen h1 h1 (l_at_value x) (lagrange_at_value (from_node_index ix))); [apply ext_refl| |].
  - intros h2 o ov E2 F2 N2. apply return_newo; [exact F2|eapply cval_ext; [exact E2|exact Dm]|].
    eapply newo_older; [|exact N2]. destruct E1; lia.
Qed.
Lemma h_sum_pedersen_ok h0 : forall os vs, Forall2 (oval h0) os vs -> forall h v m vv mv, ext h0 h -> get h v = Some (VS vv) -> get h m = Some (VS mv) ->
  (List.length h0 <= v)%nat -> (List.length h0 <= m)%nat -> v <> m ->
  refines [] h0 h (h_sum_pedersen os v m) (newo h0) (sum_pedersen vs vv mv).
Proof.
  induction 1 as [|o w os vs O F IH]; intros h v m vv mv E Gv Gm Lv Lm N; simpl.
  - apply ref_ret; [exact E|]. split; [now split|auto].
  - destruct o, w; simpl in O; try contradiction; try (now apply ref_err). destruct O as [O1 O2]. change (ext_but [] h0 h) in E. lens.
    nx s_add_ok. nx s_add_ok. apply IH; auto; gt.
Qed.
Lemma h_combine_openings_ok h ixs os tc rc vs tcv : Forall2 (oval h) os vs -> cval h tc tcv ->
  refines [] h h (h_combine_openings ixs os tc rc) (newo h) (combine_openings ixs vs tcv rc).
Proof.
  intros O C. unfold h_combine_openings, combine_openings. eapply ref_bind0 with (R1 := newo h); [|base|].
  - assert (KL : forall l h2, ext h h2 -> refines [] h2 h2 (l_at_zero l) (newss h2) (lagrange_at_zero l)) by (intros; apply l_at_zero_ok).
    destruct tc, tcv; simpl in C; try contradiction; try (apply ref_ret; [apply ext_refl|split; exact I]).
    + nx s_new_ok. nx s_new_ok. eapply h_sum_pedersen_ok; [exact O|assumption|gt|gt|lia|lia|lia].
    + destruct tc, tcv; simpl in C; try contradiction; try (apply ref_ret; [apply ext_refl|split; exact I]).
      * eapply ref_bind0; [apply h_zip_simple_ok; exact O|base|]. intros h' r rv _ _ [-> K].
        now apply (interp_simple h h l_at_zero lagrange_at_zero); [apply ext_refl| |].
      * eapply ref_bind0; [apply h_zip_pedersen_ok; exact O|base|]. intros h' r rv _ _ [-> K].
        now apply (interp_pedersen h h l_at_zero lagrange_at_zero); [apply ext_refl| |].
  - intros h1 o ov E1 F1 N1. apply return_newo; [exact F1|eapply cval_ext; [exact E1|exact C]|exact N1].
Qed.
Lemma newo_oval h h' o v : newo h h' o v -> oval h' o v.
Proof. now intros [A _]. Qed.
Lemma h_from_dealings_ok h ds tc ad rc sk pk vs tcv skv pkv : Forall2 (zrel (dv h)) ds vs -> cval h tc tcv ->
  get h sk = Some (VS skv) -> get h pk = Some (VP pkv) ->
  refines [] h h (h_from_dealings ds tc ad rc sk pk) (newo h) (from_dealings vs tcv ad rc skv pkv).
Proof.
  intros D C Gs Gp. unfold h_from_dealings, from_dealings. rewrite (zrel_fst _ _ _ D). eapply ref_bind0 with (R1 := fun h' => Forall2 (oval h')); [|base|].
  - apply hmapr with (Q := fun k => zrel (dv k)).
    + intros k k' a b E [A B]. split; [exact A|now apply (dv_ext k)].
    + intros k k' a b. apply oval_ext.
    + exact D.
    + intros k [i d] [j v] Ek (Ei & Dc & Dm & Dp). cbn [fst snd] in *. subst j.
      eapply ref_last0; [eapply hm_decrypt_and_check_ok; [exact Dc|exact Dm|now apply (ext_get h)|now apply (ext_get h)]|apply ext_refl|].
      intros h' a b _. apply newo_oval.
  - intros h1 os osv E1 F1 O1. eapply ref_last0; [apply h_combine_openings_ok; [exact O1|eapply cval_ext; [exact E1|exact C]]|exact F1|].
    intros h' a b _ K. eapply newo_older; [|exact K]. destruct E1; lia.
Qed.
Definition povs (h : heap) : list (Z * list (Z * hopening)) -> list (Z * list (Z * opening)) -> Prop := Forall2 (zrel (Forall2 (zrel (oval h)))).
Lemma povs_lookup h ps vs k : povs h ps vs ->
  match zlookup k ps, zlookup k vs with Some a, Some b => Forall2 (zrel (oval h)) a b | None, None => True | _, _ => False end.
Proof.
  induction 1 as [|[i a] [j b] ps vs [Ei H] F IH]; simpl in *; [exact I|]. subst j. destruct (k =? i); assumption.
Qed.
Lemma h_from_dealings_and_openings_ok h ds prov tc ad rc sk pk vs provv tcv skv pkv : Forall2 (zrel (dv h)) ds vs -> povs h prov provv -> cval h tc tcv ->
  get h sk = Some (VS skv) -> get h pk = Some (VP pkv) ->
  refines [] h h (h_from_dealings_and_openings ds prov tc ad rc sk pk) (newo h) (from_dealings_and_openings vs provv tcv ad rc skv pkv).
Proof.
  intros D P C Gs Gp. unfold h_from_dealings_and_openings, from_dealings_and_openings. rewrite (zrel_fst _ _ _ D).
  eapply ref_bind0 with (R1 := fun h' => Forall2 (oval h')); [|base|].
  - apply hmapr with (Q := fun k => zrel (dv k)).
    + intros k k' a b E [A B]. split; [exact A|now apply (dv_ext k)].
    + intros k k' a b. apply oval_ext.
    + exact D.
    + intros k [i d] [j v] Ek (Ei & Dd). cbn [fst snd] in *. subst j. pose proof (povs_lookup h prov provv i P) as Kp.
      destruct (zlookup i prov) as [sh|], (zlookup i provv) as [shw|]; try contradiction.
      * eapply ref_last0; [eapply h_reconstruct_share_ok; [exact Dd|]|apply ext_refl|].
        -- eapply zrel_mono; [|exact Kp]. intros a b. now apply oval_ext.
        -- intros h' a b _. apply newo_oval.
      * destruct Dd as (Dc & Dm & Dp).
        eapply ref_last0; [eapply hm_decrypt_and_check_ok; [exact Dc|exact Dm|now apply (ext_get h)|now apply (ext_get h)]|apply ext_refl|].
        intros h' a b _. apply newo_oval.
  - intros h1 os osv E1 F1 O1. eapply ref_last0; [apply h_combine_openings_ok; [exact O1|eapply cval_ext; [exact E1|exact C]]|exact F1|].
    intros h' a b _ K. eapply newo_older; [|exact K]. destruct E1; lia.
Qed.

(** ** Complaints *)
Definition cpv (h : heap) (c : hcomplaint) (v : complaint) : Prop := dlv h (hcp_proof c) (cp_proof v) /\ get h (hcp_secret c) = Some (VP (cp_secret v)).
Lemma cpv_ext h h' c v : ext h h' -> cpv h c v -> cpv h' c v.
Proof. intros E [A B]. split; [now apply (dlv_ext h)|now apply (ext_get h)]. Qed.
Lemma h_new_complaint_ok h seed d dealer rc sk pk ad v skv pkv : dv h d v -> get h sk = Some (VS skv) -> get h pk = Some (VP pkv) ->
  refines [] h h (h_new_complaint seed d dealer rc sk pk ad) cpv (new_complaint seed v dealer rc skv pkv ad).
Proof.
  intros (Dc & Dm & Dp) Gs Gp. unfold h_new_complaint, new_complaint. lens.
  eapply ref_bind0; [apply hm_eph_ok; exact Dc|base|]. intros h' e ev _ _ [-> Ge]. lens. nx p_clone_mul_ok. nxl load_p_run. nl. nx p_new_ok.
  nb h_dlog_create_ok. apply ref_ret; [assumption|]. split; cbn [hcp_proof hcp_secret cp_proof cp_secret]; [assumption|gt].
Qed.
Lemma h_complaints_loop_ok ad rc seed skv pkv sk pk : forall ds vs h, Forall2 (zrel (dv h)) ds vs -> get h sk = Some (VS skv) -> get h pk = Some (VP pkv) ->
  refines [] h h (h_complaints_loop ds ad rc sk pk seed) (fun h' => Forall2 (zrel (cpv h'))) (complaints_loop vs ad rc skv pkv seed).
Proof.
  induction ds as [|[i d] ds IH]; intros vs h D Gs Gp; inversion D as [|x [j v] y vs' [Ei Dd] D']; subst;
    cbn [h_complaints_loop complaints_loop].
  - apply ref_ret; [apply ext_refl|constructor].
  - cbn [fst snd] in *. subst j. lens.
    eapply ref_attempt; [eapply hm_decrypt_and_check_ok; [apply Dd|apply Dd|exact Gs|exact Gp]|apply ext_refl| |].
    + intros h1 o ov E1 F1 _. eapply ref_last0; [apply IH; [eapply dvs_ext; [exact E1|exact D']|gt|gt]|exact F1|auto].
    + intros h1 E1 F1. nl. lens. eapply ref_bind0; [eapply h_new_complaint_ok; [eapply dv_ext; [exact F1|exact Dd]|gt|gt]|exact F1|].
      intros h2 c cv E2 F2 C2. lens.
      eapply ref_bind0; [apply IH; [eapply dvs_ext; [exact F2|exact D']|gt|gt]|exact F2|]. intros h3 r rv E3 F3 R3.
      apply ref_ret; [exact F3|]. constructor; [split; [reflexivity|now apply (cpv_ext h2)]|exact R3].
Qed.
Lemma h_generate_complaints_ok ad rc seed skv pkv sk pk ds vs h : Forall2 (zrel (dv h)) ds vs -> get h sk = Some (VS skv) -> get h pk = Some (VP pkv) ->
  refines [] h h (h_generate_complaints ds ad rc sk pk seed) (fun h' => Forall2 (zrel (cpv h'))) (generate_complaints vs ad rc skv pkv seed).
Proof.
  intros D Gs Gp. unfold h_generate_complaints, generate_complaints.
  eapply ref_bind0; [apply h_complaints_loop_ok; eassumption|base|]. intros h1 r rv E1 F1 R1.
  destruct R1; [now apply ref_err|]. apply ref_ret; [exact F1|]. now constructor.
Qed.
Lemma h_complaint_verify_ok h c d dealer cr pk ad cv v pkv : cpv h c cv -> dv h d v -> get h pk = Some (VP pkv) ->
  refines [] h h (h_complaint_verify c d dealer cr pk ad) (fun _ _ _ => True) (complaint_verify cv v dealer cr pkv ad).
Proof.
  intros [Cp Cs] (Dc & Dm & Dp) Gp. unfold h_complaint_verify, complaint_verify. lens. nxl load_p_run. nl.
  eapply ref_bind0; [apply hm_eph_ok; exact Dc|base|]. intros h' e ev _ _ [-> Ge]. lens. nx p_new_ok.
  match goal with |- refines _ _ ?x _ _ _ => rename x into hx end. assert (Fx : ext h hx) by assumption.
  eapply ref_bind0; [eapply h_dlog_verify_ok; [gt|gt|gt|gt|eapply dlv_ext; [exact Fx|exact Cp]]|base|]. intros h2 u u' E2 F2 _. lens.
  apply (cval_ext _ _ _ F2) in Dm. apply (ctv_ext _ _ _ _ F2) in Dc.
  eapply ref_bind0; [apply hc_type_ok; exact Dm|base|]. intros h' t t' _ _ [-> ->].
  eapply ref_bind0 with (R1 := fun h' => oval h'); [|base|].
  - destruct (hd_ct d), (d_ct v); simpl in Dc; try contradiction; try (apply ref_err, ext_refl).
    + destruct Dc as (A1 & A2 & A3 & A4). destruct (t' =? ct_simple); [|apply ref_err, ext_refl].
      eapply ref_bind0; [eapply h_decrypt_single_ss_ok; [gt|exact A4|gt|gt]|base|]. intros h3 s sv E3 F3 [G3 _]. now apply ref_ret.
    + destruct Dc as (A1 & A2 & A3 & A4). destruct (t' =? ct_pedersen); [|apply ref_err, ext_refl].
      eapply ref_bind0; [eapply h_decrypt_pair_ss_ok; [gt|exact A4|gt|gt]|base|]. intros h3 s sv E3 F3 ([G3 _] & [G4 _] & _). now apply ref_ret.
  - intros h3 o ov E3 F3 O3. eapply ref_bind0; [apply hc_check_opening_ok; [eapply cval_ext; [exact E3|exact Dm]|exact O3]|base|].
    intros h4 b b' E4 F4 ->. destruct b'; [now apply ref_err|now apply ref_ret].
Qed.
End HeapDealing.
