(** C113: where the ephemeral keys and the nonces of the proofs come from. *)
From Coq Require Import ZArith Lia Bool String List.
From Verif Require Import Base BaseFacts Zmod Fields ModelScalar ProofScalar ModelXmd ModelRo ProofRand ProofZk ProofTranscript ModelPoly ProofPoly ModelGroup
  ModelCommit ModelZk ModelMega ModelDealing ModelComplaint ProofSign ProofMega ProofRun PropPolyRandom.
From Verif Require Import Toy ToyShort.
Import ListNotations.
Open Scope Z_scope.

(** [drawn_for seed dst l]: the scalars [l] are the first draws from the key
    stream of the seed derived from [seed] with the separator [dst] *)
Definition drawn_for {X : Oracles} (seed dst : bytes) (l : list Fq) : Prop := exists key e, seed_derive seed dst = Ok key /\ drawn_to key 0 l e.

(** what a ciphertext made with [seed] reveals of its randomness: the ephemeral
    key of one draw, and a proof whose response hides that draw with another *)
Definition sealed_with {X : Oracles} {GO : Grp} (seed : bytes) (ct : ciphertext) : Prop :=
  let mk eph (pf : dlog_proof) (de dp : bytes) := exists beta r, drawn_for seed de [beta] /\ drawn_for seed dp [r] /\
    eph = smul beta genG /\ dl_response pf = fadd (fmul beta (dl_challenge pf)) r in
  match ct with
  | MSingle eph _ pf _ => mk eph pf (str "ic-crypto-tecdsa-mega-encryption-single-ephemeral-key") (str "ic-crypto-tecdsa-mega-encryption-single-pop-proof")
  | MPair eph _ pf _ => mk eph pf (str "ic-crypto-tecdsa-mega-encryption-pair-ephemeral-key") (str "ic-crypto-tecdsa-mega-encryption-pair-pop-proof")
  | MNil => False
  end.

Section Facts.
Context {X : Oracles} (HX : oracles_ok X) {GO : Grp}.
Lemma one_draw key r r' : blen key = 32 -> (do rn <- seed_rng key; random_scalar rn) = Ok (r, r') -> exists p, r' = mkrng key p /\ drawn_to key 0 [r] p.
Proof.
  intros L H. rewrite (seed_rng_ok key L), bind_Ok in H. apply (random_iff HX) in H. destruct H as (n & Hn & Ev & Hm & ->).
  exists (0 + 32 * n)%nat. split; [reflexivity|]. exists n. cbn [drawn_to]. auto.
Qed.
Lemma derive_len seed dst key : seed_derive seed dst = Ok key -> blen key = 32.
Proof. intros E. destruct (new_seed_total HX seed dst) as (k & E' & L). unfold seed_derive in *. rewrite E in E'. apply Ok_inj in E'. now subst. Qed.
Lemma eph_draws t seed ad dealer beta v pop pf : eph_and_pop t seed ad dealer = Ok (beta, v, pop, pf) ->
  exists r, drawn_for seed (eph_dst t) [beta] /\ drawn_for seed (pop_proof_dst t) [r] /\ v = smul beta genG /\
    dl_response pf = fadd (fmul beta (dl_challenge pf)) r.
Proof.
  unfold eph_and_pop. destruct (seed_derive seed (eph_dst t)) as [s1| | |] eqn:E1; cbn [bind]; try discriminate.
  destruct (scalar_from_seed s1) as [b| | |] eqn:Eb; cbn [bind]; try discriminate.
  destruct (pop_base t ad dealer (mul_by_g b)) as [pb| | |]; cbn [bind]; try discriminate.
  destruct (seed_derive seed (pop_proof_dst t)) as [s2| | |] eqn:E2; cbn [bind]; try discriminate.
  destruct (dlog_create s2 b genG pb ad) as [pf'| | |] eqn:Ep; cbn [bind]; try discriminate.
  intros H. injection H as <- <- _ <-. apply dlog_create_shape in Ep. destruct Ep as (r & r' & c & Er & _ & ->).
  destruct (one_draw _ _ _ (derive_len _ _ _ E2) Er) as (p2 & _ & D2). exists r.
  unfold scalar_from_seed in Eb.
  assert (Q : exists r1, (do rn <- seed_rng s1; random_scalar rn) = Ok (b, r1)).
  { destruct (seed_rng s1) as [rn| | |]; cbn [bind] in *; try discriminate. destruct (random_scalar rn) as [[x r1]| | |]; cbn [bind fst] in *; try discriminate.
    apply Ok_inj in Eb. subst x. eauto. }
  destruct Q as (r1 & Q). destruct (one_draw _ _ _ (derive_len _ _ _ E1) Q) as (p1 & _ & D1).
  split; [exists s1, p1; auto|]. split; [exists s2, p2; auto|]. split; reflexivity.
Qed.
Lemma single_sealed seed pl rc dealer ad ct : encrypt_single seed pl rc dealer ad = Ok ct -> exists e pop pf cs, ct = MSingle e pop pf cs /\ sealed_with seed ct.
Proof.
  unfold encrypt_single. destruct (check_plaintexts pl rc); cbn [bind]; try discriminate.
  destruct (eph_and_pop MTsingle seed ad dealer) as [[[[beta v] pop] pf]| | |] eqn:E; cbn [bind]; try discriminate.
  match goal with |- context [mapM ?f ?l] => destruct (mapM f l) as [cs| | |] end; cbn [bind]; try discriminate.
  intros H. apply Ok_inj in H. exists v, pop, pf, cs. split; [now symmetry|]. rewrite <- H. apply eph_draws in E. destruct E as (r & E). exists beta, r. exact E.
Qed.
Lemma pair_sealed seed pl rc dealer ad ct : encrypt_pair seed pl rc dealer ad = Ok ct -> exists e pop pf cs, ct = MPair e pop pf cs /\ sealed_with seed ct.
Proof.
  unfold encrypt_pair. destruct (check_plaintexts pl rc); cbn [bind]; try discriminate.
  destruct (eph_and_pop MTpair seed ad dealer) as [[[[beta v] pop] pf]| | |] eqn:E; cbn [bind]; try discriminate.
  match goal with |- context [mapM ?f ?l] => destruct (mapM f l) as [cs| | |] end; cbn [bind]; try discriminate.
  intros H. apply Ok_inj in H. exists v, pop, pf, cs. split; [now symmetry|]. rewrite <- H. apply eph_draws in E. destruct E as (r & E). exists beta, r. exact E.
Qed.
End Facts.

(** C113: encryption takes the ephemeral key and the nonce of its proof from two
    separately derived seeds *)
Theorem C113_encryption : forall (X : Oracles) (HX : oracles_ok X) (GO : Grp) seed rc dealer ad ct,
  (forall pl, encrypt_single seed pl rc dealer ad = Ok ct -> (exists e pop pf cs, ct = MSingle e pop pf cs) /\ sealed_with seed ct) /\
  (forall pl, encrypt_pair seed pl rc dealer ad = Ok ct -> (exists e pop pf cs, ct = MPair e pop pf cs) /\ sealed_with seed ct).
Proof.
  intros X HX GO seed rc dealer ad ct. split; intros pl E.
  - destruct (single_sealed HX _ _ _ _ _ _ E) as (e & pop & pf & cs & Q & S). split; [eauto|exact S].
  - destruct (pair_sealed HX _ _ _ _ _ _ E) as (e & pop & pf & cs & Q & S). split; [eauto|exact S].
Qed.
Print Assumptions C113_encryption.

(** C113: a dealing encrypts with the seed derived for encryption and proves with
    nonces from the seed derived for the proof, one for equal openings and two
    successive ones for a product *)
Theorem C113_dealings : forall (X : Oracles) (HX : oracles_ok X) (GO : Grp) sh seed th rc dealer ad d,
  new_dealing sh seed th rc dealer ad = Ok d -> sh <> SOther ->
  (exists ms, seed_derive seed (str "ic-crypto-tecdsa-create-dealing-mega-encrypt") = Ok ms /\ sealed_with ms (d_ct d)) /\
  match sh with
  | SReshareMasked s m => exists pf r, d_proof d = PMasked pf /\ drawn_for seed (str "ic-crypto-tecdsa-zk-proof-of-equal-openings") [r] /\
      eo_response pf = fadd (fmul m (eo_challenge pf)) r
  | STimes l r rm => exists pf pm r1 r2, d_proof d = PProduct pf /\ drawn_for seed (str "ic-crypto-tecdsa-zk-proof-of-product") [r1; r2] /\
      pr_response1 pf = fadd (fmul l (pr_challenge pf)) r1 /\
      pr_response2 pf = fadd (fmul (fsub pm (fmul l rm)) (pr_challenge pf)) r2 /\
      match d_cm d with CPedersen (c :: _) => c = gadd (smul (fmul l r) genG) (smul pm genH) | _ => False end
  | _ => d_proof d = PNone
  end.
Proof.
  intros X HX GO sh seed th rc dealer ad d E So. unfold new_dealing in E. destruct (Z.eqb_spec th 0) as [|Nz]; [discriminate|].
  destruct (_ <? _); [discriminate|]. cbn [orb] in E. fold mega_dst.
  destruct (seed_derive seed poly_dst) as [key| | |] eqn:Ek; try discriminate. rewrite bind_Ok, (seed_rng_ok key (derive_len HX _ _ _ Ek)), bind_Ok in E.
  destruct (seed_derive seed mega_dst) as [ms| | |]; try discriminate. rewrite bind_Ok in E.
  assert (PS : forall po num cc, encrypt_and_commit_single po num rc dealer ad ms = Ok cc -> sealed_with ms (fst cc)).
  { intros po num cc. unfold encrypt_and_commit_single. match goal with |- context [encrypt_single ?a ?b ?c ?e ?f] => destruct (encrypt_single a b c e f) as [ct| | |] eqn:Q end;
      cbn [bind]; try discriminate. destruct (simple_create _ _) as [cm| | |]; cbn [bind]; try discriminate. intros H. apply Ok_inj in H. rewrite <- H. cbn [fst].
    apply (single_sealed HX) in Q. destruct Q as (? & ? & ? & ? & _ & Q). exact Q. }
  assert (PP : forall po mo num cc, encrypt_and_commit_pair po mo num rc dealer ad ms = Ok cc -> sealed_with ms (fst cc) /\ pedersen_create po mo num = Ok (snd cc)).
  { intros po mo num cc. unfold encrypt_and_commit_pair. match goal with |- context [encrypt_pair ?a ?b ?c ?e ?f] => destruct (encrypt_pair a b c e f) as [ct| | |] eqn:Q end;
      cbn [bind]; try discriminate. destruct (pedersen_create _ _ _) as [cm| | |]; cbn [bind]; try discriminate. intros H. apply Ok_inj in H. rewrite <- H. cbn [fst snd].
    apply (pair_sealed HX) in Q. destruct Q as (? & ? & ? & ? & _ & Q). auto. }
  destruct sh; [| | | |congruence].
  - destruct (poly_random th (mkrng key 0)) as [[va r1]| | |]; try discriminate. rewrite bind_Ok in E.
    destruct (poly_random th r1) as [[ma r2]| | |]; try discriminate. rewrite bind_Ok in E.
    destruct (encrypt_and_commit_pair va ma th rc dealer ad ms) as [cc| | |] eqn:Ee; try discriminate. rewrite bind_Ok in E.
    apply Ok_inj in E. rewrite <- E. cbn [d_ct d_proof]. split; [|reflexivity]. exists ms. split; [reflexivity|]. apply (PP _ _ _ _ Ee).
  - destruct (poly_random_with_constant s th (mkrng key 0)) as [[va r1]| | |]; try discriminate. rewrite bind_Ok in E.
    destruct (encrypt_and_commit_single va th rc dealer ad ms) as [cc| | |] eqn:Ee; try discriminate. rewrite bind_Ok in E.
    apply Ok_inj in E. rewrite <- E. cbn [d_ct d_proof]. split; [|reflexivity]. exists ms. split; [reflexivity|]. apply (PS _ _ _ Ee).
  - destruct (poly_random_with_constant s th (mkrng key 0)) as [[va r1]| | |]; try discriminate. rewrite bind_Ok in E.
    destruct (encrypt_and_commit_single va th rc dealer ad ms) as [cc| | |] eqn:Ee; try discriminate. rewrite bind_Ok in E.
    destruct (seed_derive seed eqo_dst) as [ps| | |] eqn:Es; try discriminate. rewrite bind_Ok in E.
    destruct (eqo_create ps s m ad) as [pf| | |] eqn:Ep; try discriminate. rewrite bind_Ok in E.
    apply Ok_inj in E. rewrite <- E. cbn [d_ct d_proof]. split; [exists ms; split; [reflexivity|]; apply (PS _ _ _ Ee)|].
    apply eqo_create_shape in Ep. destruct Ep as (r & r' & c & Er & _ & ->). destruct (one_draw HX _ _ _ (derive_len HX _ _ _ Es) Er) as (p & _ & D).
    exists (mkeqo c (fadd (fmul m c) r)), r. split; [reflexivity|]. split; [exists ps, p; auto|reflexivity].
  - destruct (random_scalar (mkrng key 0)) as [[pm r0]| | |]; try discriminate. rewrite bind_Ok in E.
    destruct (poly_random_with_constant (fmul l r) th r0) as [[va r1]| | |] eqn:Ev; try discriminate. rewrite bind_Ok in E.
    destruct (poly_random_with_constant pm th r1) as [[ma r2]| | |] eqn:Em; try discriminate. cbn [or_panic] in E. rewrite bind_Ok in E.
    destruct r0 as [k0 p0], r1 as [k1 p1].
    apply (proj2 (C112_random_polynomials X HX _ _ _)) in Ev. destruct Ev as (v & -> & Lv & _).
    apply (proj2 (C112_random_polynomials X HX _ _ _)) in Em. destruct Em as (mm & -> & _).
    destruct (encrypt_and_commit_pair (fmul l r :: v) (pm :: mm) th rc dealer ad ms) as [cc| | |] eqn:Ee; try discriminate. rewrite bind_Ok in E.
    destruct (seed_derive seed prod_dst) as [ps| | |] eqn:Es; try discriminate. rewrite bind_Ok in E.
    destruct (prod_create ps l r rm (fmul l r) pm ad) as [pf| | |] eqn:Ep; try discriminate. cbn [or_panic] in E. rewrite bind_Ok in E.
    apply Ok_inj in E. rewrite <- E. cbn [d_ct d_proof d_cm]. destruct (PP _ _ _ _ Ee) as [S C]. split; [exists ms; split; [reflexivity|exact S]|].
    apply prod_create_shape in Ep. destruct Ep as (x1 & x2 & n1 & n2 & c & E1 & E2 & _ & ->).
    destruct (one_draw HX _ _ _ (derive_len HX _ _ _ Es) E1) as (p & -> & D). apply (random_iff HX) in E2. destruct E2 as (k & Hk & Ev & Hm & _).
    eexists _, pm, x1, x2. split; [reflexivity|]. split; [|split; [reflexivity|split; [reflexivity|]]].
    + exists ps, (p + 32 * k)%nat. split; [exact Es|]. cbn [drawn_to] in *. destruct D as (n & Hn & Ev1 & Hm1 & ->). exists n. split; [exact Hn|]. split; [exact Ev1|]. split; [exact Hm1|].
      exists k. auto.
    + unfold pedersen_create in C. destruct (_ || _); [discriminate|]. apply Ok_inj in C. rewrite <- C. cbn [length] in Lv.
      destruct (Z.to_nat th) as [|n] eqn:En; [lia|]. reflexivity.
Qed.
Print Assumptions C113_dealings.

(** C113: the complaints of a receiver prove with its private key; each takes its
    nonce from a seed derived for the dealer complained about, whose separators
    differ (C65) *)
Theorem C113_complaints : forall (X : Oracles) (HX : oracles_ok X) (GO : Grp) ds ad receiver sk pk seed r,
  generate_complaints ds ad receiver sk pk seed = Ok r -> forall i c, In (i, c) r ->
  exists x, drawn_for seed (str "ic-crypto-tecdsa-complaint-against-" ++ decimal i) [x] /\
    dl_response (cp_proof c) = fadd (fmul sk (dl_challenge (cp_proof c))) x /\
    exists d e, In (i, d) ds /\ m_eph (d_ct d) = Ok e /\ cp_secret c = smul sk e.
Proof.
  intros X HX GO ds ad receiver sk pk seed r H. unfold generate_complaints in H.
  destruct (complaints_loop ds ad receiver sk pk seed) as [l| | |] eqn:E; cbn [bind] in H; try discriminate.
  assert (r = l) as -> by (destruct l; [discriminate|apply Ok_inj in H; congruence]). clear H. revert l E.
  induction ds as [|[k d] ds IH]; intros l E i c Hin; cbn [complaints_loop] in E; [apply Ok_inj in E; subst l; destruct Hin|].
  assert (W : forall l', complaints_loop ds ad receiver sk pk seed = Ok l' -> In (i, c) l' -> exists x, drawn_for seed (str "ic-crypto-tecdsa-complaint-against-" ++ decimal i) [x] /\
    dl_response (cp_proof c) = fadd (fmul sk (dl_challenge (cp_proof c))) x /\
    exists d' e, In (i, d') ((k, d) :: ds) /\ m_eph (d_ct d') = Ok e /\ cp_secret c = smul sk e).
  { intros l' E' I'. destruct (IH l' E' i c I') as (x & D & R & d' & e & I2 & Q). exists x. split; [exact D|]. split; [exact R|]. exists d', e. split; [now right|exact Q]. }
  destruct (m_decrypt_and_check _ _ _ _ _ _ _); try discriminate; [now apply (W l)|].
  destruct (seed_derive seed (complaint_dst k)) as [s| | |] eqn:Es; cbn [bind] in E; try discriminate. unfold new_complaint in E.
  destruct (m_eph (d_ct d)) as [e| | |] eqn:Ee; cbn [bind] in E; try discriminate.
  destruct (assoc_data ad receiver k pk) as [a| | |]; cbn [bind] in E; try discriminate.
  destruct (dlog_create s sk genG e a) as [pf| | |] eqn:Ep; cbn [bind] in E; try discriminate.
  destruct (complaints_loop ds ad receiver sk pk seed) as [l'| | |] eqn:El; cbn [bind] in E; try discriminate. apply Ok_inj in E. subst l.
  destruct Hin as [Hin|Hin]; [|now apply (W l')]. injection Hin as <- <-.
  apply dlog_create_shape in Ep. destruct Ep as (x & r' & ch & Er & _ & ->). destruct (one_draw HX _ _ _ (derive_len HX _ _ _ Es) Er) as (p & _ & D).
  exists x. split; [exists s, p; auto|]. split; [reflexivity|]. exists d, e. split; [now left|auto].
Qed.
Print Assumptions C113_complaints.

(** test values: a dealing of each kind, two of them with proofs *)
Section Ex.
Existing Instance ToyShort.shortX.
Existing Instance toyG.
Example C113_ex : forallb (fun sh => match new_dealing sh [1] 2 [genG; genG; genG] 4 (str "ad") with Ok (mkdealing (MSingle _ _ _ _) _ (PMasked _)) | Ok (mkdealing (MPair _ _ _ _) _ (PProduct _)) => true | _ => false end)
  [SReshareMasked fone fone; STimes fone fone fone] = true.
Proof. vm_compute. reflexivity. Qed.
Example C113_ex_complaint : match new_dealing SRandom [2] 2 [mul_by_g (of_Z q 23); mul_by_g (of_Z q 22)] 6 (str "ad") with
  | Ok d => match generate_complaints [(6, d)] (str "ad") 0 (of_Z q 21) (mul_by_g (of_Z q 21)) [3] with Ok [(6, _)] => true | _ => false end
  | _ => false end = true.
Proof. vm_compute. reflexivity. Qed.
Example C113_ex_single : is_ok (encrypt_single [1] [fone; fone] [genG; genG] 4 (str "ad")) = true /\ is_ok (encrypt_pair [1] [(fone, fone)] [genG] 4 (str "ad")) = true.
Proof. vm_compute. auto. Qed.
End Ex.
