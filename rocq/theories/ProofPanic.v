(** Which arguments make the verifying functions panic. *)
From Coq Require Import ZArith Lia Bool String List.
From Verif Require Import Base BaseFacts Zmod Fields ModelScalar ModelXmd ModelRo ModelPoly ModelGroup GroupFacts
  ModelCommit ModelZk ProofZk ModelMega ProofMega ModelDealing SpecDealing ProofPoly ProofTranscript ModelComplaint ProofComplaint
  ModelKey ProofKey ModelSign ProofSign SpecPanic.
Import ListNotations.
Open Scope Z_scope.

Section Panic.
Context {X : Oracles} (HX : oracles_ok X) {GO : Grp} {GL : GrpLaws GO}.

Lemma bind_panic {A B} (r : res A) (f : A -> res B) : bind r f = Panic <-> r = Panic \/ exists a, r = Ok a /\ f a = Panic.
Proof.
  destruct r as [a| | |]; cbn [bind]; split; intros H; try discriminate H; eauto;
    try (destruct H as [H|(a' & H & _)]; discriminate H).
  destruct H as [H|(a' & H & H')]; [discriminate H|]. injection H as <-. exact H'.
Qed.
Lemma guard_panic b : guard b <> Panic. Proof. destruct b; discriminate. Qed.

Lemma is_cm_dec c : is_cm c \/ ~ is_cm c.
Proof.
  unfold is_cm. destruct (unwrap c); [left; eauto|left; eauto|right|right|right]; intros [[l H]|[l H]]; discriminate H.
Qed.
Lemma usable_dec c : usable c \/ ~ usable c.
Proof.
  unfold usable. destruct (is_cm_dec c) as [I|I]; [|right; intros [H _]; auto].
  destruct (pts_of c); [right; intros [_ H]; auto|left; split; [auto|discriminate]].
Qed.
Lemma points_panic c : c_points c = Panic <-> ~ is_cm c.
Proof.
  destruct (is_cm_dec c) as [I|I].
  - rewrite (c_points_pts _ I). split; [discriminate|intros H; contradiction].
  - split; [auto|]. intros _. unfold c_points, is_cm in *. destruct (unwrap c); try reflexivity; destruct I; eauto.
Qed.
Lemma len_panic c : c_len c = Panic <-> ~ is_cm c.
Proof.
  unfold c_len. rewrite bind_panic, points_panic. split; [intros [H|(a & _ & H)]; [exact H|discriminate H]|auto].
Qed.
Lemma type_panic c : c_type c = Panic <-> ~ is_cm c.
Proof.
  unfold c_type, is_cm. destruct (unwrap c); split; intros H; try discriminate H; try reflexivity;
    try (exfalso; apply H; eauto; fail); intros [[l K]|[l K]]; discriminate K.
Qed.
Lemma type_simple c : c_type c = Ok ct_simple <-> of_simple c.
Proof. unfold c_type, of_simple. destruct (unwrap c); split; intros H; try discriminate H; eauto; destruct H as [l0 H]; discriminate H. Qed.
Lemma type_pedersen c : c_type c = Ok ct_pedersen <-> of_pedersen c.
Proof. unfold c_type, of_pedersen. destruct (unwrap c); split; intros H; try discriminate H; eauto; destruct H as [l0 H]; discriminate H. Qed.
Lemma type_cases c : is_cm c -> c_type c = Ok ct_simple \/ c_type c = Ok ct_pedersen.
Proof. intros [[l E]|[l E]]; unfold c_type; rewrite E; auto. Qed.
Lemma simple_cm c : of_simple c -> is_cm c. Proof. intros [l E]. left. eauto. Qed.
Lemma pedersen_cm c : of_pedersen c -> is_cm c. Proof. intros [l E]. right. eauto. Qed.
Lemma simple_not_pedersen c : of_simple c -> ~ of_pedersen c.
Proof. intros [l E] [m E']. rewrite E in E'. discriminate E'. Qed.
Lemma curve_panic c : c_curve c = Panic <-> ~ usable c.
Proof.
  unfold c_curve. rewrite bind_panic, points_panic. unfold usable. destruct (is_cm_dec c) as [I|I].
  - rewrite (c_points_pts _ I). split.
    + intros [H|(a & H & H')]; [contradiction|]. injection H as <-. destruct (pts_of c); [|discriminate H']. intros [_ N]. auto.
    + intros N. right. exists (pts_of c). split; [reflexivity|]. destruct (pts_of c); [reflexivity|]. exfalso. apply N. split; [exact I|discriminate].
  - split; [intros _ [H _]; auto|auto].
Qed.
Lemma curve_ok c : usable c -> c_curve c = Ok tt.
Proof. intros [I N]. unfold c_curve. rewrite (c_points_pts _ I). cbn [bind]. destruct (pts_of c); [congruence|reflexivity]. Qed.
Lemma constant_panic c : c_constant_term c = Panic <-> ~ usable c.
Proof.
  rewrite <- curve_panic. unfold c_constant_term, c_curve. rewrite !bind_panic. split; (intros [H|(a & H & H')]; [auto|]; right; exists a; split; [exact H|]; destruct a; [reflexivity|discriminate H']).
Qed.
Lemma eval_pts_panic l i : eval_points l i = Panic <-> l = [].
Proof. unfold eval_points. destruct l; split; intros H; try discriminate H; reflexivity. Qed.
Lemma eval_panic c i : c_eval c i = Panic <-> ~ usable c.
Proof.
  rewrite <- curve_panic. unfold c_eval, c_curve. rewrite !bind_panic. split; (intros [H|(a & H & H')]; [auto|]; right; exists a; split; [exact H|]).
  - apply eval_pts_panic in H'. subst. reflexivity.
  - destruct a; [reflexivity|discriminate H'].
Qed.
Lemma verify_is_panic c t : c_verify_is c t = Panic <-> ~ usable c.
Proof.
  unfold c_verify_is. rewrite bind_panic, curve_panic. split; [|auto]. intros [H|(a & H & H')]; [exact H|].
  apply bind_panic in H'. destruct H' as [H'|(b & _ & H')].
  - apply type_panic in H'. intros [I _]. contradiction.
  - destruct (guard_panic _ H').
Qed.
Lemma verify_is_simple_ok c : c_verify_is c ct_simple = Ok tt <-> usable c /\ of_simple c.
Proof.
  split.
  - intros H. destruct (verify_is_inv c _ H) as [N [[_ E]|[K _]]]; [|discriminate K]. split; [split; [left; eauto|exact N]|exists (pts_of c); exact E].
  - intros [U S]. unfold c_verify_is. rewrite (curve_ok c U). cbn [bind]. apply type_simple in S. rewrite S. reflexivity.
Qed.
Lemma verify_is_pedersen_ok c : c_verify_is c ct_pedersen = Ok tt <-> usable c /\ of_pedersen c.
Proof.
  split.
  - intros H. destruct (verify_is_inv c _ H) as [N [[K _]|[_ E]]]; [discriminate K|]. split; [split; [right; eauto|exact N]|exists (pts_of c); exact E].
  - intros [U S]. unfold c_verify_is. rewrite (curve_ok c U). cbn [bind]. apply type_pedersen in S. rewrite S. reflexivity.
Qed.
Lemma m_is_panic m t : m_verify_is m t = Panic <-> m = MNil.
Proof. destruct m; cbn [m_verify_is]; split; intros H; try discriminate H; try reflexivity; destruct (guard_panic _ H). Qed.
Lemma m_is_single m : m_verify_is m MTsingle = Ok tt <-> is_single m.
Proof. unfold is_single. destruct m; cbn; split; intros H; try discriminate H; eauto; destruct H as (? & ? & ? & ? & H); discriminate H. Qed.
Lemma m_is_pair m : m_verify_is m MTpair = Ok tt <-> is_pair m.
Proof. unfold is_pair. destruct m; cbn; split; intros H; try discriminate H; eauto; destruct H as (? & ? & ? & ? & H); discriminate H. Qed.
Lemma validity_panic m n ad d : m_check_validity m n ad d = Panic <-> m = MNil.
Proof.
  split; [|intros ->; reflexivity]. intros H. destruct m as [e p pf ct|e p pf ct|]; [exfalso|exfalso|reflexivity];
    unfold m_check_validity in H; cbn [m_recipients bind] in H; destruct (negb _); try discriminate H; cbn [m_verify_pop] in H;
    (destruct (verify_pop_cases HX MTsingle ad d e p pf) as [E|E] || idtac);
    match type of H with verify_pop ?t _ _ _ _ _ = _ => destruct (verify_pop_cases HX t ad d e p pf) as [E'|E']; rewrite E' in H; discriminate H end.
Qed.
Lemma tt_ok (r : res unit) a : r = Ok a -> r = Ok tt. Proof. destruct a. auto. Qed.

Lemma proof_part d op dealer ad : usable (d_cm d) -> d_ct d <> MNil ->
  match op, d_proof d with
    | TRandom, PNone =>
      do _ <- c_verify_is (d_cm d) ct_pedersen;
      m_verify_is (d_ct d) MTpair
    | TReshareMasked p, PMasked pf =>
      do _ <- c_verify_is (d_cm d) ct_simple;
      do _ <- m_verify_is (d_ct d) MTsingle;
      do e <- c_eval p dealer;
      do k <- c_constant_term (d_cm d);
      eqo_verify pf e k ad
    | TReshareUnmasked p, PNone =>
      do _ <- c_verify_is (d_cm d) ct_simple;
      do _ <- c_verify_is p ct_simple;
      do _ <- m_verify_is (d_ct d) MTsingle;
      match p with
      | CPedersen _ => Err
      | CSimple l =>
        do e <- eval_points l dealer;
        do k <- c_constant_term (d_cm d);
        guard (geqb e k)
      | _ => Ok tt
      end
    | TTimes _ _, PNone => Panic
    | TTimes l r, PProduct pf =>
      do _ <- c_verify_is (d_cm d) ct_pedersen;
      do _ <- m_verify_is (d_ct d) MTpair;
      do _ <- c_verify_is l ct_simple;
      do _ <- c_verify_is r ct_pedersen;
      do el <- c_eval l dealer;
      do er <- c_eval r dealer;
      do k <- c_constant_term (d_cm d);
      prod_verify pf el er k ad
    | _, _ => Err
  end = Panic <-> proof_crashes d op.
Proof.
  intros U N. unfold proof_crashes.
  assert (VP : forall t, c_verify_is (d_cm d) t <> Panic) by (intros t H; apply verify_is_panic in H; contradiction).
  assert (MP : forall t, m_verify_is (d_ct d) t <> Panic) by (intros t H; apply m_is_panic in H; contradiction).
  assert (KP : c_constant_term (d_cm d) <> Panic) by (intros H; apply constant_panic in H; contradiction).
  destruct op as [|p|p|l r|]; destruct (d_proof d) as [|z|z]; try (split; [discriminate|intros []]).
  - split; [|intros []]. intros H. apply bind_panic in H. destruct H as [H|(? & _ & H)]; [destruct (VP _ H)|destruct (MP _ H)].
  - split.
    + intros H. apply bind_panic in H. destruct H as [H|(a & S & H)]; [destruct (VP _ H)|]. apply tt_ok, verify_is_simple_ok in S. split; [apply S|].
      apply bind_panic in H. destruct H as [H|(b & E & H)]; [apply verify_is_panic in H; exact H|]. apply tt_ok, verify_is_simple_ok in E.
      apply bind_panic in H. destruct H as [H|(b' & _ & H)]; [destruct (MP _ H)|]. intros _.
      destruct p; try discriminate H. apply bind_panic in H. destruct H as [H|(? & _ & H)].
      * apply eval_pts_panic in H. destruct E as [[_ E] _]. apply E. exact H.
      * apply bind_panic in H. destruct H as [H|(? & _ & H)]; [exact (KP H)|exact (guard_panic _ H)].
    + intros [S P]. apply bind_panic. right. exists tt. split; [apply verify_is_simple_ok; auto|]. apply bind_panic. left. apply verify_is_panic. exact P.
  - split.
    + intros H. apply bind_panic in H. destruct H as [H|(a & S & H)]; [destruct (VP _ H)|]. apply tt_ok, verify_is_simple_ok in S. split; [apply S|].
      apply bind_panic in H. destruct H as [H|(b & E & H)]; [destruct (MP _ H)|]. split; [apply m_is_single; eapply tt_ok; exact E|].
      apply bind_panic in H. destruct H as [H|(b' & _ & H)]; [apply eval_panic in H; exact H|].
      apply bind_panic in H. destruct H as [H|(? & _ & H)]; [destruct (KP H)|]. destruct (eqo_verify_cases HX z b' x ad) as [E'|E']; rewrite E' in H; discriminate H.
    + intros (S & M & P). apply bind_panic. right. exists tt. split; [apply verify_is_simple_ok; auto|]. apply bind_panic. right. exists tt. split; [apply m_is_single; exact M|].
      apply bind_panic. left. apply eval_panic. exact P.
  - split; [auto|reflexivity].
  - split.
    + intros H. apply bind_panic in H. destruct H as [H|(a & S & H)]; [destruct (VP _ H)|]. apply tt_ok, verify_is_pedersen_ok in S. split; [apply S|].
      apply bind_panic in H. destruct H as [H|(b & E & H)]; [destruct (MP _ H)|]. split; [apply m_is_pair; eapply tt_ok; exact E|].
      apply bind_panic in H. destruct H as [H|(b' & El & H)]; [left; apply verify_is_panic in H; exact H|]. apply tt_ok, verify_is_simple_ok in El.
      apply bind_panic in H. destruct H as [H|(b2 & Er & H)]; [right; apply verify_is_panic in H; split; [apply El|exact H]|]. apply tt_ok, verify_is_pedersen_ok in Er.
      exfalso. apply bind_panic in H. destruct H as [H|(e1 & _ & H)]; [apply eval_panic in H; apply H; apply El|].
      apply bind_panic in H. destruct H as [H|(e2 & _ & H)]; [apply eval_panic in H; apply H; apply Er|].
      apply bind_panic in H. destruct H as [H|(e3 & _ & H)]; [exact (KP H)|]. destruct (prod_verify_cases HX z e1 e2 e3 ad) as [E'|E']; rewrite E' in H; discriminate H.
    + intros (S & M & P). apply bind_panic. right. exists tt. split; [apply verify_is_pedersen_ok; auto|]. apply bind_panic. right. exists tt. split; [apply m_is_pair; exact M|].
      destruct P as [P|[Sl P]].
      * apply bind_panic. left. apply verify_is_panic. exact P.
      * destruct (usable_dec l) as [Ul|Ul]; [|apply bind_panic; left; apply verify_is_panic; exact Ul].
        apply bind_panic. right. exists tt. split; [apply verify_is_simple_ok; auto|]. apply bind_panic. left. apply verify_is_panic. exact P.
Qed.

Lemma public_panic d op th dealer n ad : publicly_verify d op th dealer n ad = Panic <-> public_crash d op th dealer n ad.
Proof.
  unfold public_crash. unfold publicly_verify. rewrite bind_panic, len_panic. destruct (is_cm_dec (d_cm d)) as [I|I]; [|split; auto].
  assert (L : c_len (d_cm d) = Ok (Z.of_nat (length (pts_of (d_cm d))))) by (apply c_len_ok; auto).
  split.
  - intros [H|(k & E & H)]; [contradiction|]. right. rewrite L in E. apply Ok_inj in E. subst k.
    destruct (Z.eqb_spec (Z.of_nat (length (pts_of (d_cm d)))) th) as [E|]; cbn [negb] in H; [|discriminate H]. split; [exact E|].
    apply bind_panic in H. destruct H as [H|(u & Hc & H)].
    + left. apply curve_panic in H. destruct (pts_of (d_cm d)) eqn:P; [rewrite <- E; reflexivity|]. exfalso. apply H. split; [exact I|congruence].
    + right. apply bind_panic in H. destruct H as [H|(u' & V & H)]; [left; apply validity_panic in H; exact H|]. right. split; [eapply tt_ok; exact V|].
      apply (proof_part d op dealer ad); [|intros M; rewrite M in V; discriminate V|exact H].
      split; [exact I|]. intros P. unfold c_curve in Hc. rewrite (c_points_pts _ I), P in Hc. discriminate Hc.
  - intros [H|[E H]]; [auto|]. right. exists (Z.of_nat (length (pts_of (d_cm d)))). split; [exact L|]. rewrite E, Z.eqb_refl. cbn [negb].
    destruct (usable_dec (d_cm d)) as [U|U]; [|apply bind_panic; left; apply curve_panic; exact U].
    rewrite (curve_ok _ U). cbn [bind]. destruct H as [H|[H|[V H]]].
    + destruct U as [_ U]. destruct (pts_of (d_cm d)); [congruence|cbn [length] in E; lia].
    + rewrite H. reflexivity.
    + rewrite V. cbn [bind]. apply proof_part; [exact U|intros M; rewrite M in V; discriminate V|exact H].
Qed.

(** ** receivers *)
Lemma check_opening_ok c i o : c_check_opening c i o = Panic <->
  ~ (usable c /\ (of_simple c /\ (exists v, o = OSimple v) \/ of_pedersen c /\ exists v m, o = OPedersen v m)).
Proof.
  unfold c_check_opening, usable, of_simple, of_pedersen, is_cm, pts_of. destruct (unwrap c) as [l|l|?|?|] eqn:U.
  - destruct o as [v|v m|v|v m|]; try (split; [intros _ (_ & [(_ & w & K)|((l' & K) & _)]); discriminate K|reflexivity]).
    rewrite bind_panic, eval_pts_panic. split.
    + intros [->|(a & _ & K)]; [|discriminate K]. intros ((_ & N) & _). auto.
    + intros H. left. destruct l; [reflexivity|]. exfalso. apply H. split; [split; [left; eauto|discriminate]|left; eauto].
  - destruct o as [v|v m|v|v m|]; try (split; [intros _ (_ & [((l' & K) & _)|(_ & w & w' & K)]); discriminate K|reflexivity]).
    rewrite bind_panic, eval_pts_panic. split.
    + intros [->|(a & _ & K)]; [|discriminate K]. intros ((_ & N) & _). auto.
    + intros H. left. destruct l; [reflexivity|]. exfalso. apply H. split; [split; [right; eauto|discriminate]|right; eauto].
  - split; [intros _ (([[l K]|[l K]] & _) & _); discriminate K|reflexivity].
  - split; [intros _ (([[l K]|[l K]] & _) & _); discriminate K|reflexivity].
  - split; [intros _ (([[l K]|[l K]] & _) & _); discriminate K|reflexivity].
Qed.

Lemma decrypt_check_panic d ad dealer i sk pk :
  m_decrypt_and_check (d_ct d) (d_cm d) ad dealer i sk pk = Panic <-> private_crash d ad dealer i.
Proof.
  unfold private_crash, m_decrypt_and_check. destruct (d_ct d) as [e p pf ct|e p pf ct|] eqn:Ec; [| |split; [auto|reflexivity]].
  - assert (R : m_recipients (MSingle e p pf ct) = Ok (Z.of_nat (length ct))) by reflexivity.
    destruct (m_decrypt_outcomes HX _ _ ad dealer i sk pk R) as [D1 D2].
    destruct (verify_pop_cases HX MTsingle ad dealer e p pf) as [V|V]; change (m_verify_pop (MSingle e p pf ct) ad dealer = Ok tt) in V || change (m_verify_pop (MSingle e p pf ct) ad dealer = Err) in V.
    + destruct (D2 V) as (A & B & C). rewrite bind_panic. split.
      * intros H. right. split; [exact V|]. exists (Z.of_nat (length ct)). split; [exact R|].
        destruct (Z_lt_ge_dec i (Z.of_nat (length ct))) as [L|L].
        -- split; [exact L|]. destruct (Z_lt_ge_dec i 0) as [Ng|Ng]; [left; exact Ng|right].
           destruct (C ltac:(lia)) as (o & Eo & v & ->). rewrite Eo in H. destruct H as [H|(o & Ho & H)]; [discriminate H|].
           apply Ok_inj in Ho. subst o. apply bind_panic in H. destruct H as [H|(b & _ & H)]; [|destruct b; discriminate H].
           apply check_opening_ok in H. intros [K U]. apply H. split; [exact U|]. destruct K as [[_ K]|[K _]]; [left; eauto|].
           destruct K as (? & ? & ? & ? & K). discriminate K.
        -- rewrite (A ltac:(lia)) in H. destruct H as [H|(o & Ho & _)]; [discriminate H|discriminate Ho].
      * intros [H|(_ & n & Rn & L & H)]; [discriminate H|]. rewrite R in Rn. apply Ok_inj in Rn. subst n.
        destruct (Z_lt_ge_dec i 0) as [Ng|Ng]; [left; apply B; exact Ng|]. destruct H as [H|H]; [lia|].
        destruct (C ltac:(lia)) as (o & Eo & v & ->). right. eexists. split; [exact Eo|]. apply bind_panic. left. apply check_opening_ok.
        intros [U K]. apply H. split; [|exact U]. destruct K as [[K _]|[_ (? & ? & K)]]; [|discriminate K]. left. split; [unfold is_single; eauto|exact K].
    + rewrite (D1 V). split; [discriminate|]. intros [H|(H & _)]; [discriminate H|rewrite V in H; discriminate H].
  - assert (R : m_recipients (MPair e p pf ct) = Ok (Z.of_nat (length ct))) by reflexivity.
    destruct (m_decrypt_outcomes HX _ _ ad dealer i sk pk R) as [D1 D2].
    destruct (verify_pop_cases HX MTpair ad dealer e p pf) as [V|V]; change (m_verify_pop (MPair e p pf ct) ad dealer = Ok tt) in V || change (m_verify_pop (MPair e p pf ct) ad dealer = Err) in V.
    + destruct (D2 V) as (A & B & C). rewrite bind_panic. split.
      * intros H. right. split; [exact V|]. exists (Z.of_nat (length ct)). split; [exact R|].
        destruct (Z_lt_ge_dec i (Z.of_nat (length ct))) as [L|L].
        -- split; [exact L|]. destruct (Z_lt_ge_dec i 0) as [Ng|Ng]; [left; exact Ng|right].
           destruct (C ltac:(lia)) as (o & Eo & v & w & ->). rewrite Eo in H. destruct H as [H|(o & Ho & H)]; [discriminate H|].
           apply Ok_inj in Ho. subst o. apply bind_panic in H. destruct H as [H|(b & _ & H)]; [|destruct b; discriminate H].
           apply check_opening_ok in H. intros [K U]. apply H. split; [exact U|]. destruct K as [[K _]|[_ K]]; [|right; eauto].
           destruct K as (? & ? & ? & ? & K). discriminate K.
        -- rewrite (A ltac:(lia)) in H. destruct H as [H|(o & Ho & _)]; [discriminate H|discriminate Ho].
      * intros [H|(_ & n & Rn & L & H)]; [discriminate H|]. rewrite R in Rn. apply Ok_inj in Rn. subst n.
        destruct (Z_lt_ge_dec i 0) as [Ng|Ng]; [left; apply B; exact Ng|]. destruct H as [H|H]; [lia|].
        destruct (C ltac:(lia)) as (o & Eo & v & w & ->). right. eexists. split; [exact Eo|]. apply bind_panic. left. apply check_opening_ok.
        intros [U K]. apply H. split; [|exact U]. destruct K as [[_ (? & K)]|[K _]]; [discriminate K|]. right. split; [unfold is_pair; eauto|exact K].
    + rewrite (D1 V). split; [discriminate|]. intros [H|(H & _)]; [discriminate H|rewrite V in H; discriminate H].
Qed.
Lemma private_panic d sk pk ad dealer i : private_verify d sk pk ad dealer i = Panic <-> ~ usable (d_cm d) \/ private_crash d ad dealer i.
Proof.
  unfold private_verify. rewrite bind_panic, constant_panic. destruct (usable_dec (d_cm d)) as [U|U]; [|split; auto].
  split; (intros [H|H]; [contradiction|]).
  - destruct H as (a & _ & H). apply bind_panic in H. destruct H as [H|(o & _ & H)]; [|discriminate H]. right. apply decrypt_check_panic in H. exact H.
  - right. destruct U as [I N]. unfold c_constant_term. rewrite (c_points_pts _ I). cbn [bind]. destruct (pts_of (d_cm d)) as [|P k]; [congruence|].
    exists P. split; [reflexivity|]. apply bind_panic. left. apply decrypt_check_panic. exact H.
Qed.

(** ** verifiers of complaints *)
Lemma complaint_panic c d k i pk ad :
  complaint_verify c d k i pk ad = Panic <->
  complaint_crash (exists a e, assoc_data ad i k pk = Ok a /\ m_eph (d_ct d) = Ok e /\ dlog_verify (cp_proof c) genG e pk (cp_secret c) a = Ok tt) d i.
Proof.
  unfold complaint_verify, complaint_crash. destruct (assoc_data_total HX ad i k pk) as [a Ea]. rewrite Ea, bind_Ok.
  destruct (d_ct d) as [e p pf ct|e p pf ct|] eqn:Ec; [| |split; [auto|reflexivity]]; cbn [m_eph]; rewrite bind_Ok.
  - destruct (dlog_verify_cases HX (cp_proof c) genG e pk (cp_secret c) a) as [V|V]; rewrite V; cbn [bind].
    2:{ split; [discriminate|]. intros [H|((a' & e' & Ea' & Ee & V') & _)]; [discriminate H|]. apply Ok_inj in Ea', Ee. subst. rewrite V in V'. discriminate V'. }
    assert (PO : exists a0 e0, Ok a = Ok a0 /\ Ok e = Ok e0 /\ dlog_verify (cp_proof c) genG e0 pk (cp_secret c) a0 = Ok tt) by (exists a, e; auto).
    rewrite bind_panic, type_panic. destruct (is_cm_dec (d_cm d)) as [I|I]; [|split; auto].
    destruct (type_cases _ I) as [T|T].
    + pose proof (proj1 (type_simple _) T) as S. destruct (decrypt_single_ss_cases HX e ct ad k i pk (cp_secret c)) as (A & B & C). split.
      * intros [H|(t & Et & H)]; [contradiction|]. rewrite T in Et. apply Ok_inj in Et. subst t. rewrite Z.eqb_refl in H. right. split; [exact PO|]. right.
        split; [left; split; [unfold is_single; eauto|exact S]|]. exists (Z.of_nat (length ct)). split; [reflexivity|].
        destruct (Z_lt_ge_dec i (Z.of_nat (length ct))) as [L|L]; [|rewrite (A ltac:(lia)) in H; discriminate H].
        split; [exact L|]. destruct (Z_lt_ge_dec i 0) as [Ng|Ng]; [left; exact Ng|right].
        destruct (C ltac:(lia)) as (c0 & h & _ & _ & D). rewrite D in H. rewrite !bind_Ok in H.
        apply bind_panic in H. destruct H as [H|(b & _ & H)]; [|destruct b; discriminate H]. apply check_opening_ok in H.
        destruct (pts_of (d_cm d)) eqn:P; [reflexivity|]. exfalso. apply H. split; [split; [exact I|congruence]|left; eauto].
      * intros [H|(_ & [H|(K & n & Rn & L & H)])]; [discriminate H|contradiction|]. right. exists ct_simple. split; [exact T|]. rewrite Z.eqb_refl.
        cbn [m_recipients] in Rn. apply Ok_inj in Rn. subst n. destruct (Z_lt_ge_dec i 0) as [Ng|Ng]; [rewrite (B Ng); reflexivity|].
        destruct (C ltac:(lia)) as (c0 & h & _ & _ & D). rewrite D, !bind_Ok. apply bind_panic. left. apply check_opening_ok. intros [[_ U] _].
        destruct H as [H|H]; [lia|contradiction].
    + pose proof (proj1 (type_pedersen _) T) as S. split.
      * intros [H|(t & Et & H)]; [contradiction|]. rewrite T in Et. apply Ok_inj in Et. subst t. discriminate H.
      * intros [H|(_ & [H|([[_ K]|[(? & ? & ? & ? & K) _]] & _)])]; [discriminate H|contradiction| |discriminate K]. destruct (simple_not_pedersen _ K S).
  - destruct (dlog_verify_cases HX (cp_proof c) genG e pk (cp_secret c) a) as [V|V]; rewrite V; cbn [bind].
    2:{ split; [discriminate|]. intros [H|((a' & e' & Ea' & Ee & V') & _)]; [discriminate H|]. apply Ok_inj in Ea', Ee. subst. rewrite V in V'. discriminate V'. }
    assert (PO : exists a0 e0, Ok a = Ok a0 /\ Ok e = Ok e0 /\ dlog_verify (cp_proof c) genG e0 pk (cp_secret c) a0 = Ok tt) by (exists a, e; auto).
    rewrite bind_panic, type_panic. destruct (is_cm_dec (d_cm d)) as [I|I]; [|split; auto].
    destruct (type_cases _ I) as [T|T].
    + pose proof (proj1 (type_simple _) T) as S. split.
      * intros [H|(t & Et & H)]; [contradiction|]. rewrite T in Et. apply Ok_inj in Et. subst t. discriminate H.
      * intros [H|(_ & [H|([[(? & ? & ? & ? & K) _]|[_ K]] & _)])]; [discriminate H|contradiction|discriminate K|]. destruct (simple_not_pedersen _ S K).
    + pose proof (proj1 (type_pedersen _) T) as S. destruct (decrypt_pair_ss_cases HX e ct ad k i pk (cp_secret c)) as (A & B & C). split.
      * intros [H|(t & Et & H)]; [contradiction|]. rewrite T in Et. apply Ok_inj in Et. subst t. rewrite Z.eqb_refl in H. right. split; [exact PO|]. right.
        split; [right; split; [unfold is_pair; eauto|exact S]|]. exists (Z.of_nat (length ct)). split; [reflexivity|].
        destruct (Z_lt_ge_dec i (Z.of_nat (length ct))) as [L|L]; [|rewrite (A ltac:(lia)) in H; discriminate H].
        split; [exact L|]. destruct (Z_lt_ge_dec i 0) as [Ng|Ng]; [left; exact Ng|right].
        destruct (C ltac:(lia)) as (c0 & h & h' & _ & _ & D). rewrite D in H. rewrite !bind_Ok in H.
        apply bind_panic in H. destruct H as [H|(b & _ & H)]; [|destruct b; discriminate H]. apply check_opening_ok in H.
        destruct (pts_of (d_cm d)) eqn:P; [reflexivity|]. exfalso. apply H. split; [split; [exact I|congruence]|right; split; [exact S|]; eexists; eexists; reflexivity].
      * intros [H|(_ & [H|(K & n & Rn & L & H)])]; [discriminate H|contradiction|]. right. exists ct_pedersen. split; [exact T|]. rewrite Z.eqb_refl.
        cbn [m_recipients] in Rn. apply Ok_inj in Rn. subst n. destruct (Z_lt_ge_dec i 0) as [Ng|Ng]; [rewrite (B Ng); reflexivity|].
        destruct (C ltac:(lia)) as (c0 & h & h' & _ & _ & D). rewrite D, !bind_Ok. apply bind_panic. left. apply check_opening_ok. intros [[_ U] _].
        destruct H as [H|H]; [lia|contradiction].
Qed.

(** ** interpolation *)
Lemma mapM_panic {A B} (f : A -> res B) l : mapM f l = Panic -> exists a, In a l /\ f a = Panic.
Proof.
  induction l as [|a l IH]; cbn [mapM]; [discriminate|]. intros H. apply bind_panic in H. destruct H as [H|(b & _ & H)]; [exists a; split; [left; reflexivity|exact H]|].
  apply bind_panic in H. destruct H as [H|(r & _ & H)]; [|discriminate H]. destruct (IH H) as (x & I & E). exists x. split; [right; exact I|exact E].
Qed.
Lemma lagrange_no_panic v ks : lagrange_at_value v ks <> Panic.
Proof.
  unfold lagrange_at_value. destruct ks as [|k [|k' ks]]; [discriminate|discriminate|]. destruct (negb _); [discriminate|].
  intros H. apply mapM_panic in H. destruct H as ([n xi] & _ & H). destruct (feqb _ _); discriminate H.
Qed.
Lemma lagrange_some v ks cs : lagrange_at_value v ks = Ok cs -> cs <> [].
Proof.
  unfold lagrange_at_value. destruct ks as [|k [|k' ks]]; [discriminate|intros H; injection H as <-; discriminate|]. destruct (negb _); [discriminate|].
  cbn [map prefix_prods]. destruct (suffix_prods v _) as [t l] eqn:E. cbn [suffix_prods] in E. destruct (suffix_prods v (map from_node_index ks)) as [t' l'].
  injection E as <- <-. cbn [snd combine map mapM]. intros H. apply bind_inv in H. destruct H as (b & _ & H). apply bind_inv in H. destruct H as (r & _ & H).
  injection H as <-. discriminate.
Qed.
Lemma interp_scalar_no_panic cs ys : cs <> [] -> interpolate_scalar cs ys <> Panic.
Proof. intros N. unfold interpolate_scalar. destruct (negb _); [discriminate|]. destruct cs; [congruence|discriminate]. Qed.
Lemma interp_point_no_panic cs ys : cs <> [] -> interpolate_point cs ys <> Panic.
Proof. intros N. unfold interpolate_point. destruct (negb _); [discriminate|]. destruct cs; [congruence|discriminate]. Qed.

(** ** transcripts *)
Lemma check_lengths_forall ds th : check_lengths ds th = Ok tt <-> Forall (right_length th) ds.
Proof. rewrite check_lengths_ok, Forall_forall. reflexivity. Qed.
Lemma check_lengths_panic th : forall ds, check_lengths ds th = Panic <->
  exists pre kd post, ds = pre ++ kd :: post /\ Forall (right_length th) pre /\ ~ is_cm (d_cm (snd kd)).
Proof.
  induction ds as [|[k d] ds IH]; cbn [check_lengths].
  - split; [discriminate|]. intros (pre & kd & post & E & _). destruct pre; discriminate E.
  - rewrite bind_panic, len_panic. destruct (is_cm_dec (d_cm d)) as [I|I].
    + assert (L : c_len (d_cm d) = Ok (Z.of_nat (length (pts_of (d_cm d))))) by (apply c_len_ok; auto). rewrite L. split.
      * intros [H|(n & E & H)]; [contradiction|]. apply Ok_inj in E. subst n.
        destruct (Z.eqb_spec (Z.of_nat (length (pts_of (d_cm d)))) th) as [E|]; cbn [negb] in H; [|discriminate H].
        apply IH in H. destruct H as (pre & kd & post & -> & F & N). exists ((k, d) :: pre), kd, post. split; [reflexivity|]. split; [|exact N].
        constructor; [split; [exact I|exact E]|exact F].
      * intros (pre & kd & post & E & F & N). right. eexists. split; [reflexivity|]. destruct pre as [|x pre].
        -- injection E as <- _. destruct (N I).
        -- injection E as <- E. inversion F as [|? ? [_ El] F']; subst. cbn [snd] in *. unfold dl_pts in *. cbn [snd] in *. rewrite Z.eqb_refl. cbn [negb]. apply IH. eauto 6.
    + split; [intros _|intros _; left; exact I]. exists [], (k, d), ds. split; [reflexivity|]. split; [constructor|exact I].
Qed.
Lemma combine_no_panic ty th ds : Forall (right_length th) ds -> combine_interp ty th ds <> Panic.
Proof.
  intros F H. unfold combine_interp in H. rewrite Forall_forall in F.
  assert (M : mapM (fun kd => c_points (d_cm (snd kd))) ds = Ok (map dl_pts ds)).
  { apply mapM_total. intros kd Hin. apply c_points_pts. apply (F kd Hin). }
  rewrite M, bind_Ok in H. apply bind_panic in H. destruct H as [H|(cs & Ec & H)]; [exact (lagrange_no_panic _ _ H)|].
  apply bind_panic in H. destruct H as [H|(n & En & H)].
  - unfold go_make in H. destruct (Z.ltb_spec th 0) as [L|]; [|discriminate H]. destruct ds as [|kd ds]; [discriminate Ec|].
    destruct (F kd (or_introl eq_refl)) as [_ E]. lia.
  - apply bind_panic in H. destruct H as [H|(pts & _ & H)]; [|discriminate H]. apply mapM_panic in H. destruct H as (i & Hi & H). apply in_seq in Hi.
    apply bind_panic in H. destruct H as [H|(vals & _ & H)].
    + apply mapM_panic in H. destruct H as (l & Hl & H). apply in_map_iff in Hl. destruct Hl as (kd & <- & Hin). destruct (F kd Hin) as [_ E].
      unfold go_make in En. destruct (th <? 0); [discriminate En|]. apply Ok_inj in En. rewrite (nth_or_panic_ok _ i gzero) in H by lia. discriminate H.
    + apply lagrange_some in Ec. exact (interp_point_no_panic _ _ Ec H).
Qed.
Lemma sum_points_no_panic : forall acc pts, length acc = length pts -> exists r, sum_points acc pts = Ok r /\ length r = length acc.
Proof.
  induction acc as [|a acc IH]; intros [|p0 pts] L; try discriminate L; cbn [sum_points]; [exists []; auto|].
  destruct (IH pts ltac:(cbn [length] in L; lia)) as (r & -> & Lr). rewrite bind_Ok. eexists. split; [reflexivity|]. cbn [length]. lia.
Qed.
Lemma sum_dealings_no_panic th : forall ds acc, Forall (right_length th) ds -> Z.of_nat (length acc) = th -> sum_dealings acc ds <> Panic.
Proof.
  induction ds as [|[k d] ds IH]; intros acc F L; cbn [sum_dealings]; [discriminate|]. inversion F as [|? ? [I E] F']; subst. cbn [snd] in I. unfold dl_pts in E. cbn [snd] in E.
  intros H. apply bind_panic in H. destruct H as [H|(t & _ & H)]; [apply type_panic in H; contradiction|]. destruct (negb _); [discriminate H|].
  rewrite (c_points_pts _ I), bind_Ok in H. destruct (sum_points_no_panic acc (pts_of (d_cm d)) ltac:(lia)) as (r & Er & Lr). rewrite Er, bind_Ok in H.
  revert H. apply IH; [exact F'|lia].
Qed.
Lemma transcript_panic th ds op : keys_ok ds -> new_transcript th ds op = Panic <-> transcript_crash th ds op.
Proof.
  intros KO. unfold new_transcript, transcript_crash. rewrite bind_panic, check_lengths_panic.
  assert (E : (exists a, check_lengths ds th = Ok a /\ match op with
  | TRandom => do n <- go_make th; do l <- sum_dealings (repeat gzero n) ds; Ok (mktranscript (CSum (CPedersen l)))
  | TReshareUnmasked p => do t <- c_type p; if negb (t =? ct_simple) then Err else do n <- c_len p;
      if Z.of_nat (length ds) <? n then Err else do c <- combine_interp ct_simple th ds; do a0 <- c_constant_term p; do b <- c_constant_term c;
        if geqb a0 b then Ok (mktranscript c) else Err
  | TReshareMasked p => do t <- c_type p; if negb (t =? ct_pedersen) then Err else do n <- c_len p;
      if Z.of_nat (length ds) <? n then Err else do c <- combine_interp ct_simple th ds; Ok (mktranscript c)
  | TTimes l r => do tl <- c_type l; if negb (tl =? ct_simple) then Err else do tr <- c_type r; if negb (tr =? ct_pedersen) then Err else
      do nl <- c_len l; do nr <- c_len r; if Z.of_nat (length ds) <? nl + nr - 1 then Err else do c <- combine_interp ct_pedersen th ds; Ok (mktranscript c)
  | TOther => Ok (mktranscript CNil)
  end = Panic) <-> Forall (right_length th) ds /\
  match op with
  | TRandom => th < 0
  | TReshareMasked p => ~ is_cm p
  | TReshareUnmasked p => ~ is_cm p \/
      of_simple p /\ ds <> [] /\ Z.of_nat (length (pts_of p)) <= Z.of_nat (length ds) /\ (pts_of p = [] \/ th = 0)
  | TTimes l r => ~ is_cm l \/ of_simple l /\ ~ is_cm r
  | TOther => False
  end).
  2:{ split; (intros [H|H]; [left; exact H|right; apply E; exact H]). }
  split.
  - intros (u & C & H). apply tt_ok, check_lengths_forall in C. split; [exact C|]. destruct op as [|p|p|l r|].
    + apply bind_panic in H. destruct H as [H|(n & En & H)]; [unfold go_make in H; destruct (Z.ltb_spec th 0); [assumption|discriminate H]|].
      unfold go_make in En. destruct (Z.ltb_spec th 0); [discriminate En|]. apply Ok_inj in En. subst n.
      apply bind_panic in H. destruct H as [H|(x & _ & H)]; [|discriminate H]. exfalso. revert H. apply (sum_dealings_no_panic th); [exact C|rewrite repeat_length; lia].
    + apply bind_panic in H. destruct H as [H|(t & T & H)]; [left; apply type_panic; exact H|right].
      destruct (Z.eqb_spec t ct_simple) as [->|]; cbn [negb] in H; [|discriminate H]. apply type_simple in T. split; [exact T|]. pose proof (simple_cm _ T) as I.
      assert (L : c_len p = Ok (Z.of_nat (length (pts_of p)))) by (apply c_len_ok; auto). rewrite L, bind_Ok in H.
      destruct (Z.ltb_spec (Z.of_nat (length ds)) (Z.of_nat (length (pts_of p)))); [discriminate H|].
      apply bind_panic in H. destruct H as [H|(c & Ec & H)]; [destruct (combine_no_panic _ _ _ C H)|].
      assert (Nd : ds <> []) by (intros ->; discriminate Ec).
      split; [exact Nd|]. split; [assumption|]. apply bind_panic in H. destruct H as [H|(a & _ & H)].
      * left. apply constant_panic in H. destruct (pts_of p) eqn:P; [reflexivity|]. exfalso. apply H. split; [exact I|congruence].
      * right. apply bind_panic in H. destruct H as [H|(b & _ & H)]; [|destruct (geqb _ _); discriminate H]. apply constant_panic in H.
        assert (P0 : 0 <= th). { destruct ds as [|kd ds]; [congruence|]. inversion C as [|? ? [_ Ek] _]. lia. }
        destruct (combine_interp_ok ct_simple th ds KO Nd P0 (proj2 (check_lengths_forall _ _) C)) as (cs & pts & _ & _ & _ & Ec' & Lp & _).
        rewrite Ec in Ec'. apply Ok_inj in Ec'. subst c. destruct pts; [cbn [length] in Lp; lia|]. exfalso. apply H. split; [left; exists (g :: pts); reflexivity|discriminate].
    + apply bind_panic in H. destruct H as [H|(t & T & H)]; [apply type_panic; exact H|].
      destruct (Z.eqb_spec t ct_pedersen) as [->|]; cbn [negb] in H; [|discriminate H]. apply type_pedersen in T. pose proof (pedersen_cm _ T) as I.
      assert (L : c_len p = Ok (Z.of_nat (length (pts_of p)))) by (apply c_len_ok; auto). rewrite L, bind_Ok in H. destruct (_ <? _); [discriminate H|].
      apply bind_panic in H. destruct H as [H|(c & _ & H)]; [destruct (combine_no_panic _ _ _ C H)|discriminate H].
    + apply bind_panic in H. destruct H as [H|(t & T & H)]; [left; apply type_panic; exact H|right].
      destruct (Z.eqb_spec t ct_simple) as [->|]; cbn [negb] in H; [|discriminate H]. apply type_simple in T. split; [exact T|]. pose proof (simple_cm _ T) as I.
      apply bind_panic in H. destruct H as [H|(t & T2 & H)]; [apply type_panic; exact H|]. exfalso.
      destruct (Z.eqb_spec t ct_pedersen) as [->|]; cbn [negb] in H; [|discriminate H]. apply type_pedersen in T2. pose proof (pedersen_cm _ T2) as I2.
      assert (L : c_len l = Ok (Z.of_nat (length (pts_of l)))) by (apply c_len_ok; auto). rewrite L, bind_Ok in H.
      assert (L2 : c_len r = Ok (Z.of_nat (length (pts_of r)))) by (apply c_len_ok; auto). rewrite L2, bind_Ok in H. destruct (_ <? _); [discriminate H|].
      apply bind_panic in H. destruct H as [H|(c & _ & H)]; [destruct (combine_no_panic _ _ _ C H)|discriminate H].
    + discriminate H.
  - intros [C H]. exists tt. split; [apply check_lengths_forall; exact C|]. destruct op as [|p|p|l r|].
    + unfold go_make. apply Z.ltb_lt in H. rewrite H. reflexivity.
    + destruct H as [H|(S & Nd & L & H)]; [apply bind_panic; left; apply type_panic; exact H|]. pose proof (simple_cm _ S) as I.
      rewrite (proj2 (type_simple _) S), bind_Ok. cbn [negb]. rewrite Z.eqb_refl. cbn [negb].
      assert (Ln : c_len p = Ok (Z.of_nat (length (pts_of p)))) by (apply c_len_ok; auto). rewrite Ln, bind_Ok.
      destruct (Z.ltb_spec (Z.of_nat (length ds)) (Z.of_nat (length (pts_of p)))); [lia|].
      assert (P0 : 0 <= th). { destruct ds as [|kd ds]; [congruence|]. inversion C as [|? ? [_ Ek] _]. lia. }
      destruct (combine_interp_ok ct_simple th ds KO Nd P0 (proj2 (check_lengths_forall _ _) C)) as (cs & pts & _ & _ & _ & Ec & Lp & _). rewrite Ec, bind_Ok.
      destruct (pts_of p) as [|P k] eqn:Ep.
      * apply bind_panic. left. apply constant_panic. intros [_ N]. congruence.
      * assert (Kp : c_constant_term p = Ok P) by (unfold c_constant_term; rewrite (c_points_pts _ I), Ep; reflexivity). rewrite Kp, bind_Ok.
        destruct H as [H|H]; [discriminate H|]. subst th. destruct pts; [reflexivity|discriminate Lp].
    + apply bind_panic. left. apply type_panic. exact H.
    + destruct H as [H|[S H]]; [apply bind_panic; left; apply type_panic; exact H|].
      rewrite (proj2 (type_simple _) S), bind_Ok. rewrite Z.eqb_refl. cbn [negb]. apply bind_panic. left. apply type_panic. exact H.
    + destruct H.
Qed.

(** ** openings *)
Lemma consistent_panic c i o : c_return_if_consistent c i o = Panic <-> c_check_opening c i o = Panic.
Proof. unfold c_return_if_consistent. rewrite bind_panic. split; [intros [H|(b & _ & H)]; [exact H|destruct b; discriminate H]|auto]. Qed.
Lemma collect_simple_no_panic os : collect_simple os <> Panic.
Proof.
  induction os as [|[i o] os IH]; cbn [collect_simple]; [discriminate|]. destruct o; try exact IH; try discriminate.
  intros H. apply bind_panic in H. destruct H as [H|(r & _ & H)]; [exact (IH H)|discriminate H].
Qed.
Lemma collect_pedersen_no_panic os : collect_pedersen os <> Panic.
Proof.
  induction os as [|[i o] os IH]; cbn [collect_pedersen]; [discriminate|]. destruct o; try exact IH; try discriminate.
  intros H. apply bind_panic in H. destruct H as [H|(r & _ & H)]; [exact (IH H)|discriminate H].
Qed.
Lemma reconstruct_panic d os ix : reconstruct_share d os ix = Panic <->
  ~ is_cm (d_cm d) \/
  Z.of_nat (length (pts_of (d_cm d))) <= Z.of_nat (length os) /\ (pts_of (d_cm d) = [] \/ ~ bare (d_cm d)).
Proof.
  unfold reconstruct_share. rewrite bind_panic, len_panic. destruct (is_cm_dec (d_cm d)) as [I|I]; [|split; auto].
  assert (L : c_len (d_cm d) = Ok (Z.of_nat (length (pts_of (d_cm d))))) by (apply c_len_ok; auto). rewrite L. split.
  - intros [H|(n & E & H)]; [contradiction|]. apply Ok_inj in E. subst n. right.
    destruct (Z.ltb_spec (Z.of_nat (length os)) (Z.of_nat (length (pts_of (d_cm d))))); [discriminate H|]. split; [assumption|].
    apply bind_panic in H. destruct H as [H|(u & Cu & H)].
    + left. apply curve_panic in H. destruct (pts_of (d_cm d)) eqn:P; [reflexivity|]. exfalso. apply H. split; [exact I|congruence].
    + right. intros B. assert (U : usable (d_cm d)). { destruct (usable_dec (d_cm d)) as [U|U]; [exact U|]. apply curve_panic in U. rewrite U in Cu. discriminate Cu. }
      destruct (d_cm d) as [l|l|?|?|] eqn:Ed; try destruct B; cbv zeta in H.
      * apply bind_panic in H. destruct H as [H|(o & Eo & H)].
        -- apply bind_panic in H. destruct H as [H|(vs & _ & H)]; [exact (collect_simple_no_panic _ H)|].
           apply bind_panic in H. destruct H as [H|(cs & Ec & H)]; [exact (lagrange_no_panic _ _ H)|]. apply lagrange_some in Ec.
           apply bind_panic in H. destruct H as [H|(v & _ & H)]; [exact (interp_scalar_no_panic _ _ Ec H)|discriminate H].
        -- apply bind_inv in Eo. destruct Eo as (vs & _ & Eo). apply bind_inv in Eo. destruct Eo as (cs & _ & Eo). apply bind_inv in Eo. destruct Eo as (v & _ & Eo).
           apply Ok_inj in Eo. subst o. apply consistent_panic, check_opening_ok in H. apply H. split; [exact U|]. left. split; [exists l; reflexivity|eauto].
      * apply bind_panic in H. destruct H as [H|(o & Eo & H)].
        -- apply bind_panic in H. destruct H as [H|(vs & _ & H)]; [exact (collect_pedersen_no_panic _ H)|].
           apply bind_panic in H. destruct H as [H|(cs & Ec & H)]; [exact (lagrange_no_panic _ _ H)|]. apply lagrange_some in Ec.
           apply bind_panic in H. destruct H as [H|(v & _ & H)]; [exact (interp_scalar_no_panic _ _ Ec H)|].
           apply bind_panic in H. destruct H as [H|(m & _ & H)]; [exact (interp_scalar_no_panic _ _ Ec H)|discriminate H].
        -- apply bind_inv in Eo. destruct Eo as (vs & _ & Eo). apply bind_inv in Eo. destruct Eo as (cs & _ & Eo). apply bind_inv in Eo. destruct Eo as (v & _ & Eo).
           apply bind_inv in Eo. destruct Eo as (m & _ & Eo).
           apply Ok_inj in Eo. subst o. apply consistent_panic, check_opening_ok in H. apply H. split; [exact U|]. right. split; [exists l; reflexivity|eauto].
  - intros [H|[Le H]]; [auto|]. right. eexists. split; [reflexivity|]. destruct (Z.ltb_spec (Z.of_nat (length os)) (Z.of_nat (length (pts_of (d_cm d))))); [lia|].
    destruct (usable_dec (d_cm d)) as [U|U]; [|apply bind_panic; left; apply curve_panic; exact U]. rewrite (curve_ok _ U), bind_Ok. cbv zeta.
    destruct H as [H|H]; [destruct U; contradiction|]. destruct (d_cm d) as [l|l|c|c|] eqn:Ed; try (destruct H; exact Logic.I); rewrite bind_Ok; apply consistent_panic, check_opening_ok;
      intros (_ & [(_ & v & K)|(_ & v & m & K)]); discriminate K.
Qed.

(** all index/opening lists of equal length, whatever the openings *)
Lemma zip_simple_no_panic : forall os ixs, length ixs = length os -> zip_simple ixs os <> Panic.
Proof.
  induction os as [|o os IH]; intros [|i ixs] L; try discriminate L; cbn [zip_simple]; [discriminate|]. destruct o; try discriminate.
  intros H. apply bind_panic in H. destruct H as [H|(r & _ & H)]; [|discriminate H]. revert H. apply IH. cbn [length] in L. lia.
Qed.
Lemma zip_pedersen_no_panic : forall os ixs, length ixs = length os -> zip_pedersen ixs os <> Panic.
Proof.
  induction os as [|o os IH]; intros [|i ixs] L; try discriminate L; cbn [zip_pedersen]; [discriminate|]. destruct o; try discriminate.
  intros H. apply bind_panic in H. destruct H as [H|(r & _ & H)]; [|discriminate H]. revert H. apply IH. cbn [length] in L. lia.
Qed.
Lemma sum_pedersen_cases : forall os v m, sum_pedersen os v m = Err \/ exists v' m', sum_pedersen os v m = Ok (OPedersen v' m').
Proof. induction os as [|o os IH]; intros v m; cbn [sum_pedersen]; [eauto|]. destruct o; auto. Qed.
Lemma combine_openings_no_panic ixs os tc i : transcript_shape tc -> length ixs = length os -> combine_openings ixs os tc i <> Panic.
Proof.
  intros (l & Nl & T) L H. unfold combine_openings in H. destruct T as [->|[->| ->]]; cbv iota in H.
  - destruct (sum_pedersen_cases os fzero fzero) as [E|(v & m & E)]; rewrite E in H; cbn [bind] in H; [discriminate H|].
    apply consistent_panic, check_opening_ok in H. apply H. split; [split; [right; exists l; reflexivity|exact Nl]|right; split; [exists l; reflexivity|eauto]].
  - apply bind_panic in H. destruct H as [H|(o & Eo & H)].
    + apply bind_panic in H. destruct H as [H|(vs & _ & H)]; [revert H; apply zip_simple_no_panic; exact L|].
      apply bind_panic in H. destruct H as [H|(cs & Ec & H)]; [exact (lagrange_no_panic _ _ H)|]. apply lagrange_some in Ec.
      apply bind_panic in H. destruct H as [H|(v & _ & H)]; [exact (interp_scalar_no_panic _ _ Ec H)|discriminate H].
    + apply bind_inv in Eo. destruct Eo as (vs & _ & Eo). apply bind_inv in Eo. destruct Eo as (cs & _ & Eo). apply bind_inv in Eo. destruct Eo as (v & _ & Eo).
      apply Ok_inj in Eo. subst o. apply consistent_panic, check_opening_ok in H. apply H. split; [split; [left; exists l; reflexivity|exact Nl]|left; split; [exists l; reflexivity|eauto]].
  - apply bind_panic in H. destruct H as [H|(o & Eo & H)].
    + apply bind_panic in H. destruct H as [H|(vs & _ & H)]; [revert H; apply zip_pedersen_no_panic; exact L|].
      apply bind_panic in H. destruct H as [H|(cs & Ec & H)]; [exact (lagrange_no_panic _ _ H)|]. apply lagrange_some in Ec.
      apply bind_panic in H. destruct H as [H|(v & _ & H)]; [exact (interp_scalar_no_panic _ _ Ec H)|].
      apply bind_panic in H. destruct H as [H|(m & _ & H)]; [exact (interp_scalar_no_panic _ _ Ec H)|discriminate H].
    + apply bind_inv in Eo. destruct Eo as (vs & _ & Eo). apply bind_inv in Eo. destruct Eo as (cs & _ & Eo). apply bind_inv in Eo. destruct Eo as (v & _ & Eo).
      apply bind_inv in Eo. destruct Eo as (m & _ & Eo).
      apply Ok_inj in Eo. subst o. apply consistent_panic, check_opening_ok in H. apply H. split; [split; [right; exists l; reflexivity|exact Nl]|right; split; [exists l; reflexivity|eauto]].
Qed.
Lemma mapM_length {A B} (f : A -> res B) : forall l r, mapM f l = Ok r -> length r = length l.
Proof.
  induction l as [|a l IH]; intros r H; cbn [mapM] in H; [apply Ok_inj in H; subst; reflexivity|].
  apply bind_inv in H. destruct H as (b & _ & H). apply bind_inv in H. destruct H as (r' & E & H). apply Ok_inj in H. subst. cbn [length]. rewrite (IH _ E). reflexivity.
Qed.
Lemma from_dealings_no_panic ds tc ad i sk pk : transcript_shape tc -> (forall k d, In (k, d) ds -> ~ private_crash d ad k i) ->
  from_dealings ds tc ad i sk pk <> Panic.
Proof.
  intros T F H. unfold from_dealings in H. apply bind_panic in H. destruct H as [H|(os & Eo & H)].
  - apply mapM_panic in H. destruct H as ([k d] & Hin & H). cbn [fst snd] in H. apply decrypt_check_panic in H. exact (F k d Hin H).
  - apply mapM_length in Eo. revert H. apply combine_openings_no_panic; [exact T|rewrite map_length; congruence].
Qed.

(** ** signing *)
Lemma presig_panic t : presig_point t = Panic <-> exists c, tr_commitment t = CInterp c /\ (~ is_cm c \/ of_simple c /\ (~ bare c \/ pts_of c = [])).
Proof.
  unfold presig_point. destruct (tr_commitment t) as [l|l|c|c|]; try (split; [discriminate|intros (c' & K & _); discriminate K]).
  rewrite bind_panic, type_panic. split.
  - intros H. exists c. split; [reflexivity|]. destruct H as [H|(ty & T & H)]; [auto|]. destruct (Z.eqb_spec ty ct_simple) as [->|]; [|discriminate H].
    apply type_simple in T. right. split; [exact T|]. destruct c as [l|l|c|c|]; try (left; intros []; fail).
    + right. apply constant_panic in H. destruct l; [reflexivity|]. exfalso. apply H. split; [left; eexists; reflexivity|discriminate].
    + destruct T as [l' T]. discriminate T.
  - intros (c' & E & H). injection E as <-. destruct H as [H|[S H]]; [auto|]. right. exists ct_simple. split; [apply type_simple; exact S|]. rewrite Z.eqb_refl.
    destruct c as [l|l|c|c|]; try reflexivity. destruct H as [H|H]; [destruct H; exact Logic.I|]. cbn in H. subst l. reflexivity.
Qed.
Lemma rho_panic h rnd pa key presig : derive_rho h rnd pa key presig = Panic <-> rho_crash key presig.
Proof.
  unfold derive_rho, rho_crash. rewrite bind_panic, presig_panic. split.
  - intros [(c & E & H)|(ps & Eps & H)].
    + exists c. split; [exact E|]. destruct H as [H|[S [H|H]]]; auto.
    + unfold presig_point in Eps. destruct (tr_commitment presig) as [l|l|c|c|]; try discriminate Eps. exists c. split; [reflexivity|]. right.
      apply bind_inv in Eps. destruct Eps as (ty & T & Eps). destruct (Z.eqb_spec ty ct_simple) as [->|]; [|discriminate Eps]. apply type_simple in T. split; [exact T|].
      right. right. apply bind_panic in H. destruct H as [H|(K & EK & H)]; [apply constant_panic in H; exact H|]. exfalso.
      destruct (tweak_loop_cases HX pa K (repeat 0 32) fzero) as [[[t ch] E]|E]; unfold derive_tweak in H; rewrite E in H; [|discriminate H]. cbn [bind fst] in H.
      destruct (ro_scalar_total HX (rho_ro h rnd ps t) (rho_ro_nonempty _ _ _ _)) as [rz Er]. rewrite Er in H. cbn [bind] in H. rewrite conversion_spec in H. discriminate H.
  - intros (c & E & H). destruct H as [H|[S [H|[H|H]]]]; [left; exists c; auto|left; exists c; auto|left; exists c; auto|].
    assert (D : (~ bare c \/ pts_of c = []) \/ exists P l, c = CSimple (P :: l)).
    { destruct S as [l S]. destruct c as [k|k|c|c|]; try (left; left; intros []; fail); [|discriminate S]. destruct k as [|P k]; [left; right; reflexivity|right; eauto]. }
    destruct D as [D|(P & l & ->)]; [left; exists c; auto|]. right. exists P. unfold presig_point. rewrite E. split; [reflexivity|].
    apply bind_panic. left. apply constant_panic. exact H.
Qed.
Lemma rho_no_err h rnd pa key presig : derive_rho h rnd pa key presig = Err <-> ~ (exists c, tr_commitment presig = CInterp c /\ (~ is_cm c \/ of_simple c)).
Proof.
  unfold derive_rho. split.
  - intros H (c & E & D). unfold presig_point in H. rewrite E in H. destruct D as [D|D].
    + apply type_panic in D. rewrite D in H. discriminate H.
    + apply type_simple in D. rewrite D, bind_Ok, Z.eqb_refl in H. destruct c as [l|l|c|c|]; try discriminate H.
      destruct l as [|P l]; [discriminate H|]. unfold c_constant_term at 1 in H. cbn [c_points unwrap] in H. rewrite !bind_Ok in H.
      unfold tr_constant_term in H. unfold c_constant_term in H. destruct (is_cm_dec (tr_commitment key)) as [I|I].
      * rewrite (c_points_pts _ I), bind_Ok in H. destruct (pts_of (tr_commitment key)) as [|K kl]; [discriminate H|]. rewrite bind_Ok in H.
        destruct (tweak_loop_cases HX pa K (repeat 0 32) fzero) as [[[t ch] Et]|Et]; unfold derive_tweak in H; rewrite Et in H; [|discriminate H]. cbn [bind fst] in H.
        destruct (ro_scalar_total HX (rho_ro h rnd P t) (rho_ro_nonempty _ _ _ _)) as [rz Er]. rewrite Er in H. cbn [bind] in H. rewrite conversion_spec in H. discriminate H.
      * apply points_panic in I. rewrite I in H. discriminate H.
  - intros N. unfold presig_point. destruct (tr_commitment presig) as [l|l|c|c|] eqn:E; try reflexivity.
    destruct (is_cm_dec c) as [I|I]; [|destruct N; eauto]. destruct (type_cases _ I) as [T|T]; [destruct N; exists c; split; [reflexivity|right; apply type_simple; exact T]|].
    rewrite T, bind_Ok. reflexivity.
Qed.
Lemma new_share_panic pa h rnd key presig lam kl xl :
  new_share pa h rnd key presig lam kl xl = Panic <->
  rho_crash key presig \/
  (exists r, derive_rho h rnd pa key presig = Ok r) /\
  (64 < blen h \/ lambda_parts lam = None /\ (lambda_parts kl <> None \/ lambda_parts xl <> None)).
Proof.
  unfold new_share. rewrite bind_panic, rho_panic. split; (intros [H|H]; [left; exact H|right]).
  - destruct H as (r & E & H). split; [eauto|]. rewrite hash_to_integer_spec in H. destruct (Z.ltb_spec 64 (blen h)); [left; assumption|right]. cbn [bind] in H.
    destruct lam as [v|v m|v|v m|], xl as [xv|xv xm|xv|xv xm|], kl as [kv|kv km|kv|kv km|]; cbn [lambda_parts bind] in H |- *; try discriminate H;
      (split; [reflexivity|]); (left; discriminate) || (right; discriminate).
  - destruct H as ((r & E) & H). exists r. split; [exact E|]. rewrite hash_to_integer_spec. destruct (Z.ltb_spec 64 (blen h)); [reflexivity|]. cbn [bind].
    destruct H as [H|(N & H)]; [lia|]. destruct lam as [v|v m|v|v m|], xl as [xv|xv xm|xv|xv xm|], kl as [kv|kv km|kv|kv km|];
      cbn [lambda_parts bind] in *; try discriminate N; try reflexivity; destruct H as [H|H]; congruence.
Qed.
Lemma share_verify_panic s pa h rnd i key presig lam kl xl :
  share_verify s pa h rnd i key presig lam kl xl = Panic <->
  rho_crash key presig \/
  (exists r, derive_rho h rnd pa key presig = Ok r) /\
  (64 < blen h \/ ~ usable (tr_commitment lam) \/ ~ usable (tr_commitment kl) \/ ~ usable (tr_commitment xl)).
Proof.
  unfold share_verify. rewrite bind_panic, rho_panic. split; (intros [H|H]; [left; exact H|right]).
  - destruct H as (r & E & H). split; [eauto|]. rewrite hash_to_integer_spec in H. destruct (Z.ltb_spec 64 (blen h)); [left; assumption|right]. cbn [bind] in H.
    unfold tr_eval in H. apply bind_panic in H. destruct H as [H|(a & _ & H)]; [apply eval_panic in H; auto|]. right.
    apply bind_panic in H. destruct H as [H|(b & _ & H)]; [apply eval_panic in H; auto|]. right.
    apply bind_panic in H. destruct H as [H|(c & _ & H)]; [apply eval_panic in H; auto|]. exfalso.
    destruct (ss_num s); cbn [bind] in H; try (destruct (ss_den s); try discriminate H; destruct (guard_panic _ H); fail).
    apply bind_panic in H. destruct H as [H|(u & _ & H)]; [destruct (guard_panic _ H)|]. destruct (ss_den s); try discriminate H; destruct (guard_panic _ H).
  - destruct H as ((r & E) & H). exists r. split; [exact E|]. rewrite hash_to_integer_spec. destruct (Z.ltb_spec 64 (blen h)); [reflexivity|]. cbn [bind].
    destruct H as [H|H]; [lia|]. unfold tr_eval.
    assert (EV : forall t, usable t -> exists P, c_eval t i = Ok P).
    { intros t [I N]. unfold c_eval. rewrite (c_points_pts _ I). cbn [bind]. unfold eval_points. destruct (pts_of t); [congruence|eauto]. }
    destruct (usable_dec (tr_commitment lam)) as [U1|U1]; [|apply bind_panic; left; apply eval_panic; exact U1]. destruct (EV _ U1) as [P1 E1]. rewrite E1, bind_Ok.
    destruct (usable_dec (tr_commitment kl)) as [U2|U2]; [|apply bind_panic; left; apply eval_panic; exact U2]. destruct (EV _ U2) as [P2 E2]. rewrite E2, bind_Ok.
    destruct (usable_dec (tr_commitment xl)) as [U3|U3]; [|apply bind_panic; left; apply eval_panic; exact U3]. tauto.
Qed.
Lemma combine_sig_panic pa h rnd key presig th shares :
  combine_sig pa h rnd key presig th shares = Panic <->
  th <= Z.of_nat (length shares) /\ (rho_crash key presig \/ (exists r, derive_rho h rnd pa key presig = Ok r) /\ th < 0).
Proof.
  unfold combine_sig. destruct (Z.ltb_spec (Z.of_nat (length shares)) th) as [L|L]; [split; [discriminate|lia]|].
  rewrite bind_panic, rho_panic. split.
  - intros H. split; [exact L|]. destruct H as [H|(r & E & H)]; [left; exact H|right]. split; [eauto|].
    apply bind_panic in H. destruct H as [H|(n & En & H)]; [unfold go_make in H; destruct (Z.ltb_spec th 0); [assumption|discriminate H]|]. exfalso.
    cbv zeta in H. apply bind_panic in H. destruct H as [H|(cs & Ec & H)]; [exact (lagrange_no_panic _ _ H)|]. apply lagrange_some in Ec.
    apply bind_panic in H. destruct H as [H|(nu & _ & H)]; [exact (interp_scalar_no_panic _ _ Ec H)|].
    apply bind_panic in H. destruct H as [H|(de & _ & H)]; [exact (interp_scalar_no_panic _ _ Ec H)|discriminate H].
  - intros (_ & [H|((r & E) & H)]); [left; exact H|right]. exists r. split; [exact E|]. unfold go_make. apply Z.ltb_lt in H. rewrite H. reflexivity.
Qed.
Lemma sig_verify_panic t pa h rnd key presig :
  sig_verify t pa h rnd key presig = Panic <-> sg_r t <> fzero /\ sg_s t <> fzero /\ (64 < blen h \/ rho_crash key presig).
Proof.
  unfold sig_verify. destruct (feqb (sg_r t) fzero) eqn:Er.
  { cbn [orb]. split; [discriminate|]. intros (N & _). apply feqb_eq in Er. contradiction. }
  destruct (feqb (sg_s t) fzero) eqn:Es.
  { cbn [orb]. split; [discriminate|]. intros (_ & N & _). apply feqb_eq in Es. contradiction. }
  cbn [orb]. apply feqb_neq in Er, Es. rewrite hash_to_integer_spec. destruct (Z.ltb_spec 64 (blen h)) as [Lh|Lh]; [split; auto|].
  rewrite bind_Ok, bind_panic, rho_panic. split.
  - intros H. split; [exact Er|]. split; [exact Es|]. right. destruct H as [H|(r & E & H)]; [exact H|]. exfalso.
    destruct (_ || _); [discriminate H|]. apply bind_panic in H. destruct H as [H|(mk & _ & H)].
    + unfold tr_constant_term in H. unfold derive_rho in E. apply bind_inv in E. destruct E as (ps & _ & E). unfold tr_constant_term in E. rewrite H in E. discriminate E.
    + cbv zeta in H. destruct (is_infinity _); [discriminate H|]. exact (guard_panic _ H).
  - intros (_ & _ & [H|H]); [lia|auto].
Qed.
End Panic.
