(** Property C66: all randomness of proofs, ciphertexts and complaints comes from
    the seed alone, so using one seed twice reveals secrets. *)
From Coq Require Import ZArith Lia Bool String List Ring Field.
From Verif Require Import Base BaseFacts Zmod Fields ModelScalar ProofScalar ModelXmd ProofXmd ModelRo ProofRand
  SpecPoly ModelPoly ProofPoly ModelGroup GroupFacts ModelCommit ModelZk ModelMega ProofZk ProofMega ProofTranscript ModelDealing ModelComplaint ModelProtocol.
From Verif Require Import Toy PropComplaint.
Import ListNotations.
Open Scope Z_scope.

Lemma two_responses (x r c c' : Fq) : c <> c' ->
  x = fdiv (fsub (fadd (fmul x c) r) (fadd (fmul x c') r)) (fsub c c').
Proof.
  intro N. assert (fsub c c' <> fzero).
  { intro H. apply N. replace c with (fadd (fsub c c') c') by ring. rewrite H. ring. }
  field. assumption.
Qed.
Lemma one_response (x r c : Fq) : c <> fzero -> x = fdiv (fsub (fadd (fmul x c) r) r) c.
Proof. intro N. field. assumption. Qed.

(** the responses of the three provers, with a nonce that depends on the seed only *)
Lemma dlog_response {X : Oracles} {GO : Grp} seed x g h ad pf : dlog_create seed x g h ad = Ok pf ->
  exists r, scalar_from_seed seed = Ok r /\ dl_response pf = fadd (fmul x (dl_challenge pf)) r.
Proof.
  intros E. apply dlog_create_shape in E. destruct E as (r & r' & c & E & _ & ->). exists r. split; [|reflexivity].
  unfold scalar_from_seed. destruct (seed_rng seed) as [rn| | |]; try discriminate. cbn [bind] in *. rewrite E. reflexivity.
Qed.
Lemma eqo_response {X : Oracles} {GO : Grp} seed s m ad pf : eqo_create seed s m ad = Ok pf ->
  exists r, scalar_from_seed seed = Ok r /\ eo_response pf = fadd (fmul m (eo_challenge pf)) r.
Proof.
  intros E. apply eqo_create_shape in E. destruct E as (r & r' & c & E & _ & ->). exists r. split; [|reflexivity].
  unfold scalar_from_seed. destruct (seed_rng seed) as [rn| | |]; try discriminate. cbn [bind] in *. rewrite E. reflexivity.
Qed.
(** Two proofs made with the same seed and the same witness, for whatever other
    inputs, give the witness away to anyone who sees both. *)
Theorem C66_reused_proof_seed : forall (X : Oracles) (GO : Grp) seed,
  (forall x g h ad g' h' ad' pf pf', dlog_create seed x g h ad = Ok pf -> dlog_create seed x g' h' ad' = Ok pf' ->
     dl_challenge pf <> dl_challenge pf' ->
     x = fdiv (fsub (dl_response pf) (dl_response pf')) (fsub (dl_challenge pf) (dl_challenge pf'))) /\
  (forall s s' m ad ad' pf pf', eqo_create seed s m ad = Ok pf -> eqo_create seed s' m ad' = Ok pf' ->
     eo_challenge pf <> eo_challenge pf' ->
     m = fdiv (fsub (eo_response pf) (eo_response pf')) (fsub (eo_challenge pf) (eo_challenge pf'))) /\
  (forall l r rm p pm ad r' rm' p' pm' ad' pf pf', prod_create seed l r rm p pm ad = Ok pf -> prod_create seed l r' rm' p' pm' ad' = Ok pf' ->
     pr_challenge pf <> pr_challenge pf' ->
     l = fdiv (fsub (pr_response1 pf) (pr_response1 pf')) (fsub (pr_challenge pf) (pr_challenge pf'))).
Proof.
  intros X GO seed. split; [|split].
  - intros x g h ad g' h' ad' pf pf' E E' N. apply dlog_response in E, E'. destruct E as (r & E & ->), E' as (r' & E' & ->).
    rewrite E in E'. injection E' as <-. apply two_responses, N.
  - intros s s' m ad ad' pf pf' E E' N. apply eqo_response in E, E'. destruct E as (r & E & ->), E' as (r' & E' & ->).
    rewrite E in E'. injection E' as <-. apply two_responses, N.
  - intros l r rm p pm ad r' rm' p' pm' ad' pf pf' E E' N. apply prod_create_shape in E, E'.
    destruct E as (x & x2 & rn1 & rn2 & c & E & _ & _ & ->), E' as (y & y2 & rn1' & rn2' & c' & E' & _ & _ & ->).
    rewrite E in E'. injection E' as <- _. exact (two_responses l x c c' N).
Qed.
Print Assumptions C66_reused_proof_seed.

(** the nonce of a complaint against [dealer] made by GenerateComplaints *)
Definition complaint_nonce {X : Oracles} (seed : bytes) (dealer : Z) : res Fq :=
  do s <- seed_derive seed (complaint_dst dealer); scalar_from_seed s.

Lemma complaint_response (X : Oracles) (GO : Grp) ad i sk pk seed : forall ds cs, complaints_loop ds ad i sk pk seed = Ok cs ->
  forall k c, In (k, c) cs -> exists r, complaint_nonce seed k = Ok r /\
    dl_response (cp_proof c) = fadd (fmul sk (dl_challenge (cp_proof c))) r.
Proof.
  induction ds as [|[j d] ds IH]; cbn [complaints_loop]; intros cs E k c Hin.
  { injection E as <-. destruct Hin. }
  destruct (m_decrypt_and_check (d_ct d) (d_cm d) ad j i sk pk) as [o| | |]; try discriminate.
  { apply (IH cs E k c Hin). }
  destruct (seed_derive seed (complaint_dst j)) as [s| | |] eqn:Es; cbn [bind] in E; try discriminate.
  destruct (new_complaint s d j i sk pk ad) as [c0| | |] eqn:Ec; cbn [bind] in E; try discriminate.
  destruct (complaints_loop ds ad i sk pk seed) as [r| | |] eqn:Er; cbn [bind] in E; try discriminate.
  injection E as <-. destruct Hin as [H|H]; [|apply (IH r eq_refl k c H)]. injection H as <- <-.
  unfold new_complaint in Ec. destruct (m_eph (d_ct d)) as [e| | |]; cbn [bind] in Ec; try discriminate.
  destruct (assoc_data ad i j pk) as [a| | |]; cbn [bind] in Ec; try discriminate.
  destruct (dlog_create s sk genG e a) as [pf| | |] eqn:Ep; cbn [bind] in Ec; try discriminate.
  injection Ec as <-. cbn [cp_proof]. apply dlog_response in Ep. destruct Ep as (x & Ex & R). exists x. split; [|exact R].
  unfold complaint_nonce. rewrite Es. exact Ex.
Qed.

(** Calling GenerateComplaints twice with one seed: two complaints against the
    same dealer reveal the receiver's MEGa private key. *)
Theorem C66_complaints_reveal_key : forall (X : Oracles) (GO : Grp) ds ad i pk ds' ad' i' pk' sk seed cs cs' k c c',
  generate_complaints ds ad i sk pk seed = Ok cs -> generate_complaints ds' ad' i' sk pk' seed = Ok cs' ->
  In (k, c) cs -> In (k, c') cs' -> dl_challenge (cp_proof c) <> dl_challenge (cp_proof c') ->
  sk = fdiv (fsub (dl_response (cp_proof c)) (dl_response (cp_proof c'))) (fsub (dl_challenge (cp_proof c)) (dl_challenge (cp_proof c'))).
Proof.
  intros X GO ds ad i pk ds' ad' i' pk' sk seed cs cs' k c c' E E' I I' N. unfold generate_complaints in *.
  destruct (complaints_loop ds ad i sk pk seed) as [r| | |] eqn:Er; cbn [bind] in E; try discriminate.
  destruct (complaints_loop ds' ad' i' sk pk' seed) as [r'| | |] eqn:Er'; cbn [bind] in E'; try discriminate.
  assert (cs = r) as -> by (destruct r; [discriminate|congruence]). assert (cs' = r') as -> by (destruct r'; [discriminate|congruence]).
  destruct (complaint_response X GO _ _ _ _ _ _ _ Er _ _ I) as (x & Ex & ->).
  destruct (complaint_response X GO _ _ _ _ _ _ _ Er' _ _ I') as (x' & Ex' & ->).
  assert (x' = x) as -> by congruence. apply two_responses, N.
Qed.
Print Assumptions C66_complaints_reveal_key.

(** Whoever knows the seed computes the key from a single complaint.  The driver
    OpenDealings (testutils/dealings.go:22-30) takes the seed from the transcript
    commitment, which is public. *)
Theorem C66_known_seed_reveals_key : forall (X : Oracles) (GO : Grp) ds ad i pk sk seed cs k c,
  generate_complaints ds ad i sk pk seed = Ok cs -> In (k, c) cs -> dl_challenge (cp_proof c) <> fzero ->
  exists r, complaint_nonce seed k = Ok r /\ sk = fdiv (fsub (dl_response (cp_proof c)) r) (dl_challenge (cp_proof c)).
Proof.
  intros X GO ds ad i pk sk seed cs k c E I N. unfold generate_complaints in E.
  destruct (complaints_loop ds ad i sk pk seed) as [r| | |] eqn:Er; cbn [bind] in E; try discriminate.
  assert (cs = r) as -> by (destruct r; [discriminate|congruence]).
  destruct (complaint_response X GO _ _ _ _ _ _ _ Er _ _ I) as (x & Ex & ->). exists x. split; [exact Ex|]. apply one_response, N.
Qed.
Print Assumptions C66_known_seed_reveals_key.

(** Encrypting twice with one seed for the same recipients: the difference of
    two ciphertexts is the difference of the plaintexts. *)
Theorem C66_reused_encryption_seed : forall (X : Oracles) (HX : oracles_ok X) (GO : Grp) (GL : GrpLaws GO) seed rc dealer ad,
  (forall pl pl' e pop pf ct e' pop' pf' ct' i c c' v v',
     encrypt_single seed pl rc dealer ad = Ok (MSingle e pop pf ct) ->
     encrypt_single seed pl' rc dealer ad = Ok (MSingle e' pop' pf' ct') ->
     nth_error ct i = Some c -> nth_error ct' i = Some c' -> nth_error pl i = Some v -> nth_error pl' i = Some v' ->
     fsub c c' = fsub v v') /\
  (forall pl pl' e pop pf ct e' pop' pf' ct' i c c' v v',
     encrypt_pair seed pl rc dealer ad = Ok (MPair e pop pf ct) ->
     encrypt_pair seed pl' rc dealer ad = Ok (MPair e' pop' pf' ct') ->
     nth_error ct i = Some c -> nth_error ct' i = Some c' -> nth_error pl i = Some v -> nth_error pl' i = Some v' ->
     fsub (fst c) (fst c') = fsub (fst v) (fst v') /\ fsub (snd c) (snd c') = fsub (snd v) (snd v')).
Proof.
  intros X HX GO GL seed rc dealer ad.
  assert (B : forall t e pop pf beta v, eph_and_pop t seed ad dealer = Ok (beta, v, pop, pf) -> e = mul_by_g beta -> v = e).
  { intros t e pop pf beta v H ->. apply (eph_and_pop_spec t) in H. apply H. }
  split.
  - intros pl pl' e pop pf ct e' pop' pf' ct' i c c' v v' E E' Nc Nc' Nv Nv'.
    pose proof (encrypt_single_spec HX _ _ _ _ _ _ E) as (L & _ & _). pose proof (encrypt_single_spec HX _ _ _ _ _ _ E') as (L' & _ & _).
    assert (exists pk, nth_error rc i = Some pk) as [pk Hk].
    { destruct (nth_error rc i) eqn:En; [eauto|]. apply nth_error_None in En. assert (nth_error pl i = None) by (apply nth_error_None; lia). congruence. }
    unfold encrypt_single in E, E'.
    destruct (check_plaintexts pl rc) as [[]| | |]; cbn [bind] in E; try discriminate.
    destruct (check_plaintexts pl' rc) as [[]| | |]; cbn [bind] in E'; try discriminate.
    destruct (eph_and_pop MTsingle seed ad dealer) as [[[[beta w] po] pr]| | |] eqn:Ee; cbn [bind] in E, E'; try discriminate.
    match type of E with context [mapM ?f ?l] => destruct (mapM f l) as [cts| | |] eqn:Em end; cbn [bind] in E; try discriminate.
    match type of E' with context [mapM ?f ?l] => destruct (mapM f l) as [cts'| | |] eqn:Em' end; cbn [bind] in E'; try discriminate.
    injection E as _ _ _ ->. injection E' as _ _ _ ->.
    destruct (mapM_ok _ _ _ Em) as [_ M]. destruct (mapM_ok _ _ _ Em') as [_ M'].
    destruct (M i _ (combine3_nth rc pl i pk v Hk Nv)) as (b & Nb & F). destruct (M' i _ (combine3_nth rc pl' i pk v' Hk Nv')) as (b' & Nb' & F').
    assert (b = c) as -> by congruence. assert (b' = c') as -> by congruence.
    destruct (mega_hash _ _ _ _ _ _ _) as [hm| | |]; cbn [bind] in F, F'; try discriminate.
    destruct (nth_or_panic hm 0) as [h| | |]; cbn [bind] in F, F'; try discriminate.
    injection F as <-. injection F' as <-. ring.
  - intros pl pl' e pop pf ct e' pop' pf' ct' i c c' v v' E E' Nc Nc' Nv Nv'.
    pose proof (encrypt_pair_spec HX _ _ _ _ _ _ E) as (L & _ & _). pose proof (encrypt_pair_spec HX _ _ _ _ _ _ E') as (L' & _ & _).
    assert (exists pk, nth_error rc i = Some pk) as [pk Hk].
    { destruct (nth_error rc i) eqn:En; [eauto|]. apply nth_error_None in En. assert (nth_error pl i = None) by (apply nth_error_None; lia). congruence. }
    unfold encrypt_pair in E, E'.
    destruct (check_plaintexts pl rc) as [[]| | |]; cbn [bind] in E; try discriminate.
    destruct (check_plaintexts pl' rc) as [[]| | |]; cbn [bind] in E'; try discriminate.
    destruct (eph_and_pop MTpair seed ad dealer) as [[[[beta w] po] pr]| | |] eqn:Ee; cbn [bind] in E, E'; try discriminate.
    match type of E with context [mapM ?f ?l] => destruct (mapM f l) as [cts| | |] eqn:Em end; cbn [bind] in E; try discriminate.
    match type of E' with context [mapM ?f ?l] => destruct (mapM f l) as [cts'| | |] eqn:Em' end; cbn [bind] in E'; try discriminate.
    injection E as _ _ _ ->. injection E' as _ _ _ ->. destruct v as [v0 v1], v' as [v0' v1'].
    destruct (mapM_ok _ _ _ Em) as [_ M]. destruct (mapM_ok _ _ _ Em') as [_ M'].
    destruct (M i _ (combine3_nth rc pl i pk _ Hk Nv)) as (b & Nb & F). destruct (M' i _ (combine3_nth rc pl' i pk _ Hk Nv')) as (b' & Nb' & F').
    assert (b = c) as -> by congruence. assert (b' = c') as -> by congruence.
    destruct (mega_hash _ _ _ _ _ _ _) as [hm| | |]; cbn [bind] in F, F'; try discriminate.
    destruct (nth_or_panic hm 0) as [h| | |]; cbn [bind] in F, F'; try discriminate.
    destruct (nth_or_panic hm 1) as [h1| | |]; cbn [bind] in F, F'; try discriminate.
    injection F as <-. injection F' as <-. cbn [fst snd]. split; ring.
Qed.
Print Assumptions C66_reused_encryption_seed.

(** Resharing two secrets with one seed: every ciphertext entry gives away the
    difference of the secrets. *)
Theorem C66_reused_dealing_seed : forall (X : Oracles) (HX : oracles_ok X) (GO : Grp) (GL : GrpLaws GO) s s' seed th rc dealer ad d d',
  new_dealing (SReshareUnmasked s) seed th rc dealer ad = Ok d ->
  new_dealing (SReshareUnmasked s') seed th rc dealer ad = Ok d' ->
  exists e pop pf ct e' pop' pf' ct', d_ct d = MSingle e pop pf ct /\ d_ct d' = MSingle e' pop' pf' ct' /\
    length ct = length rc /\ length ct' = length rc /\
    forall i c c', nth_error ct i = Some c -> nth_error ct' i = Some c' -> fsub c c' = fsub s s'.
Proof.
  intros X HX GO GL s s' seed th rc dealer ad d d' E E'. unfold new_dealing in *.
  destruct ((th =? 0) || _)%bool; [discriminate|].
  destruct (seed_derive seed poly_dst) as [s1| | |]; cbn [bind] in *; try discriminate.
  destruct (seed_rng s1) as [rn| | |]; cbn [bind] in *; try discriminate.
  destruct (seed_derive seed mega_dst) as [ms| | |]; cbn [bind] in *; try discriminate.
  unfold poly_random_with_constant in *. destruct (th =? 0); [discriminate|]. destruct (th <? 0); [discriminate|].
  destruct (random_scalars (Z.to_nat th - 1) rn) as [[l rn']| | |]; cbn [bind] in *; try discriminate.
  unfold encrypt_and_commit_single in *.
  match type of E with context [encrypt_single _ ?p _ _ _] => set (pl := p) in *; destruct (encrypt_single ms pl rc dealer ad) as [m| | |] eqn:Em end;
    cbn [bind] in E; try discriminate.
  match type of E' with context [encrypt_single _ ?p _ _ _] => set (pl' := p) in *; destruct (encrypt_single ms pl' rc dealer ad) as [m'| | |] eqn:Em' end;
    cbn [bind] in E'; try discriminate.
  destruct (simple_create (s :: l) th) as [cm| | |]; cbn [bind fst snd] in E; try discriminate.
  destruct (simple_create (s' :: l) th) as [cm'| | |]; cbn [bind fst snd] in E'; try discriminate.
  injection E as <-. injection E' as <-. cbn [d_ct].
  destruct (encrypt_single_spec HX _ _ _ _ _ _ Em) as (_ & _ & b & pop & pf & ct & -> & L & _).
  destruct (encrypt_single_spec HX _ _ _ _ _ _ Em') as (_ & _ & b' & pop' & pf' & ct' & -> & L' & _).
  do 8 eexists. split; [reflexivity|]. split; [reflexivity|]. split; [exact L|]. split; [exact L'|].
  intros i c c' Nc Nc'.
  assert (Hi : (i < length rc)%nat) by (rewrite <- L; apply nth_error_Some; congruence).
  assert (N : forall p, nth_error (map (fun i => evaluate_at p (from_node_index (Z.of_nat i))) (seq 0 (length rc))) i
            = Some (evaluate_at p (from_node_index (Z.of_nat i)))).
  { intro p. apply map_nth_error with (f := fun i => evaluate_at p (from_node_index (Z.of_nat i))).
    rewrite (nth_error_nth' _ 0%nat) by (rewrite seq_length; exact Hi). rewrite seq_nth by exact Hi. reflexivity. }
  rewrite (proj1 (C66_reused_encryption_seed X HX GO GL ms rc dealer ad) pl pl' _ _ _ _ _ _ _ _ i c c' _ _ Em Em' Nc Nc' (N _) (N _)).
  rewrite !evaluate_at_pev. cbn [pev]. ring.
Qed.
Print Assumptions C66_reused_dealing_seed.

(** two runs of GenerateComplaints with one seed over two dealings of dealer 6;
    a hash that mixes a little better than the one of [toyX] *)
Definition ex_oracles : Oracles := {|
  sha256 m := let s := fold_left (fun a b => (a * 257 + b) mod 65521) m (blen m) in map (fun i => (s * (Z.of_nat i + 1) + s / 251) mod 256) (seq 0 32);
  hmac512 := @hmac512 toyX; keystream := @keystream toyX; rand_fuel := 4%nat
|}.
Definition ex_challenges {X : Oracles} (ds : list (Z * dealing)) (sk : Fq) : res (list Fq) :=
  do cs <- generate_complaints ds (str "ad") 0 sk (mul_by_g sk) [3]; Ok (map (fun kc => dl_challenge (cp_proof (snd kc))) cs).
Definition ex_differ {X : Oracles} : res bool :=
  do d <- new_dealing SRandom [1] 2 [mul_by_g (of_Z q 23); mul_by_g (of_Z q 22)] 6 (str "ad");
  do d' <- new_dealing SRandom [2] 2 [mul_by_g (of_Z q 23); mul_by_g (of_Z q 22)] 6 (str "ad");
  do cs <- ex_challenges [(6, d)] (of_Z q 21); do cs' <- ex_challenges [(6, d')] (of_Z q 21);
  match cs, cs' with [c], [c'] => Ok (negb (feqb c c') && negb (feqb c fzero))%bool | _, _ => Err end.
Example C66_ex : @ex_differ ex_oracles = Ok true.
Proof. vm_compute. reflexivity. Qed.
Example C66_ex_dealings :
  let rc := [mul_by_g (of_Z q 21); mul_by_g (of_Z q 22)] in
  (is_ok (new_dealing (SReshareUnmasked (of_Z q 5)) [1] 2 rc 4 (str "ad"))
   && is_ok (new_dealing (SReshareUnmasked (of_Z q 77)) [1] 2 rc 4 (str "ad")))%bool = true.
Proof. vm_compute. reflexivity. Qed.
