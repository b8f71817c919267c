(** Property C83: the signature shares of all nodes say nothing about the key
    and the nonce that the signature does not say. *)
From Coq Require Import ZArith Lia Bool String List Ring Field.
From Verif Require Import Base BaseFacts Zmod Fields ModelScalar ProofScalar ModelXmd ModelRo SpecPoly ModelPoly ProofPoly
  ProofLagrange ProofSecrecy ModelGroup GroupFacts SpecGroup ModelCommit ProofCommit ModelZk ModelMega
  ModelDealing ProofTranscript ModelKey ModelSign ProofSign PropPoly PropHiding Toy.
Import ListNotations.
Open Scope Z_scope.

(** the polynomials, values and masks, behind the transcripts of lambda, of
    kappa * lambda and of key * lambda
    (no code of /repo is modelled here) *)
Record masked := mkmasked { m_l : list Fq; m_lm : list Fq; m_kl : list Fq; m_klm : list Fq; m_xl : list Fq; m_xlm : list Fq }.
Definition masked_for (t : nat) (x kappa : Fq) (m : masked) : Prop :=
  (length (m_l m) = t /\ length (m_lm m) = t /\ length (m_kl m) = t /\ length (m_klm m) = t /\ length (m_xl m) = t /\ length (m_xlm m) = t) /\
  spec_eval (m_kl m) fzero = fmul kappa (spec_eval (m_l m) fzero) /\ spec_eval (m_xl m) fzero = fmul x (spec_eval (m_l m) fzero).
(** the commitments and the openings of the nodes [idx] *)
Definition masked_view {GO : Grp} (idx : list Z) (m : masked) :=
  (view idx (m_l m) (m_lm m), view idx (m_kl m) (m_klm m), view idx (m_xl m) (m_xlm m)).
Definition open_at (po mo : list Fq) (i : Z) : opening := OPedersen (spec_eval po (node_x i)) (spec_eval mo (node_x i)).
(** the signature share of node [i] *)
Definition share_of {X : Oracles} {GO : Grp} (pa : path) (hashed randomness : bytes) (key presig : transcript) (m : masked) (i : Z) : res sig_share :=
  new_share pa hashed randomness key presig (open_at (m_l m) (m_lm m) i) (open_at (m_kl m) (m_klm m) i) (open_at (m_xl m) (m_xlm m) i).

Section Sim.
Context {GO : Grp} {GL : GrpLaws GO}.
Context (alpha : Fq) (EH : genH = smul alpha genG) (Na : alpha <> fzero).

Definition mask_shift (d : list Fq) : list Fq := pscale (fneg (finv alpha)) d.
Lemma mask_shift_length d : length (mask_shift d) = length d.
Proof. unfold mask_shift, pscale. apply map_length. Qed.
Lemma pscale_eval c d x : spec_eval (pscale c d) x = fmul c (spec_eval d x).
Proof. rewrite !pev_spec. apply pscale_pev. Qed.
Lemma shift_view t idx d po mo : length d = t -> (forall i, In i idx -> spec_eval d (node_x i) = fzero) -> length po = t -> length mo = t ->
  view idx (poly_add po d) (poly_add mo (mask_shift d)) = view idx po mo.
Proof.
  intros Ld Zd Lp Lm. apply (view_nth t); try assumption; try (rewrite poly_add_length, ?mask_shift_length; lia). split.
  - intros n. rewrite !poly_add_nth. assert (E : nth n (mask_shift d) fzero = fneg (fdiv (nth n d fzero) alpha)).
    { change (coeff (pscale (fneg (finv alpha)) d) n = fneg (fdiv (coeff d n) alpha)). rewrite pscale_coeff. field. exact Na. }
    rewrite E, <- (pedersen_shift alpha (nth n po fzero) (nth n mo fzero) (nth n d fzero) EH Na). f_equal. ring.
  - intros i Hi. rewrite !spec_eval_add. unfold mask_shift. rewrite pscale_eval, (Zd i Hi). split; ring.
Qed.

(** adding [c * lambda] times [e] to lambda, and multiples of it to the rest so
    that the signature shares do not change *)
Definition move (e : list Fq) (c rz tr : Fq) (m : masked) : masked :=
  let a := fmul c (spec_eval (m_l m) fzero) in
  let d1 := pscale a e in let d2 := pscale (fneg (fmul rz a)) e in let d3 := pscale (fneg (fmul tr a)) e in
  mkmasked (poly_add (m_l m) d1) (poly_add (m_lm m) (mask_shift d1)) (poly_add (m_kl m) d2) (poly_add (m_klm m) (mask_shift d2))
    (poly_add (m_xl m) d3) (poly_add (m_xlm m) (mask_shift d3)).

Lemma poly_add_cancel p a b e t : length p = t -> length e = t -> fadd a b = fzero -> poly_add (poly_add p (pscale a e)) (pscale b e) = p.
Proof.
  intros Lp Le H. assert (La : forall c, length (pscale c e) = t) by (intros c; unfold pscale; rewrite map_length; exact Le).
  apply (nth_ext _ _ fzero fzero); [rewrite !poly_add_length, !La; lia|]. intros n _. rewrite !poly_add_nth.
  change (fadd (fadd (nth n p fzero) (coeff (pscale a e) n)) (coeff (pscale b e) n) = nth n p fzero). rewrite !pscale_coeff.
  assert (E : fadd (fadd (nth n p fzero) (fmul (coeff e n) a)) (fmul (coeff e n) b) = fadd (nth n p fzero) (fmul (fadd a b) (coeff e n))) by ring.
  rewrite E, H. ring.
Qed.
Lemma mask_shift_scale c e : mask_shift (pscale c e) = pscale (fmul (fneg (finv alpha)) c) e.
Proof. unfold mask_shift, pscale. rewrite map_map. apply map_ext. intros a. ring. Qed.

Lemma move_back t e c c' rz tr m : length e = t -> spec_eval e fzero = fone -> fadd c (fmul c' (fadd fone c)) = fzero ->
  (length (m_l m) = t /\ length (m_lm m) = t /\ length (m_kl m) = t /\ length (m_klm m) = t /\ length (m_xl m) = t /\ length (m_xlm m) = t) ->
  move e c' rz tr (move e c rz tr m) = m.
Proof.
  intros Le E1 H (L1 & L2 & L3 & L4 & L5 & L6). destruct m as [l lm kl klm xl xlm]. cbn [m_l m_lm m_kl m_klm m_xl m_xlm] in *.
  unfold move. cbn [m_l m_lm m_kl m_klm m_xl m_xlm]. rewrite spec_eval_add, pscale_eval, E1.
  set (v := spec_eval l fzero). assert (A : fadd (fmul c v) (fmul c' (fadd v (fmul (fmul c v) fone))) = fzero).
  { assert (Q : fadd (fmul c v) (fmul c' (fadd v (fmul (fmul c v) fone))) = fmul v (fadd c (fmul c' (fadd fone c)))) by ring. rewrite Q, H. ring. }
  revert A. generalize (fmul c v) (fmul c' (fadd v (fmul (fmul c v) fone))). intros a b A.
  rewrite !mask_shift_scale. f_equal; apply (poly_add_cancel _ _ _ _ t); try assumption.
  - assert (Q : fadd (fmul (fneg (finv alpha)) a) (fmul (fneg (finv alpha)) b) = fmul (fneg (finv alpha)) (fadd a b)) by ring. rewrite Q, A. ring.
  - assert (Q : fadd (fneg (fmul rz a)) (fneg (fmul rz b)) = fneg (fmul rz (fadd a b))) by ring. rewrite Q, A. ring.
  - assert (Q : fadd (fmul (fneg (finv alpha)) (fneg (fmul rz a))) (fmul (fneg (finv alpha)) (fneg (fmul rz b))) =
      fneg (fmul (fneg (finv alpha)) (fmul rz (fadd a b)))) by ring. rewrite Q, A. ring.
  - assert (Q : fadd (fneg (fmul tr a)) (fneg (fmul tr b)) = fneg (fmul tr (fadd a b))) by ring. rewrite Q, A. ring.
  - assert (Q : fadd (fmul (fneg (finv alpha)) (fneg (fmul tr a))) (fmul (fneg (finv alpha)) (fneg (fmul tr b))) =
      fneg (fmul (fneg (finv alpha)) (fmul tr (fadd a b)))) by ring. rewrite Q, A. ring.
Qed.
Lemma move_view t idx e c rz tr m : length e = t -> (forall i, In i idx -> spec_eval e (node_x i) = fzero) ->
  (length (m_l m) = t /\ length (m_lm m) = t /\ length (m_kl m) = t /\ length (m_klm m) = t /\ length (m_xl m) = t /\ length (m_xlm m) = t) ->
  masked_view idx (move e c rz tr m) = masked_view idx m.
Proof.
  intros Le Ze (L1 & L2 & L3 & L4 & L5 & L6). unfold masked_view, move. cbn [m_l m_lm m_kl m_klm m_xl m_xlm].
  assert (Ls : forall a, length (pscale a e) = t) by (intros a; unfold pscale; rewrite map_length; exact Le).
  assert (Zs : forall a i, In i idx -> spec_eval (pscale a e) (node_x i) = fzero) by (intros a i Hi; rewrite pscale_eval, (Ze i Hi); ring).
  f_equal; [f_equal|]; apply (shift_view t); auto.
Qed.
Lemma move_masked t x kappa x' kappa' e rho theta rz m : length e = t -> spec_eval e fzero = fone -> rho <> fzero -> fadd kappa' rz <> fzero ->
  fmul (fadd theta (fmul rho x)) (fadd kappa' rz) = fmul (fadd theta (fmul rho x')) (fadd kappa rz) ->
  masked_for t x kappa m -> masked_for t x' kappa' (move e (fsub (fdiv (fadd kappa rz) (fadd kappa' rz)) fone) rz (fdiv theta rho) m).
Proof.
  intros Le E1 Nr Nk H ((L1 & L2 & L3 & L4 & L5 & L6) & K1 & K2). unfold masked_for, move. cbn [m_l m_lm m_kl m_klm m_xl m_xlm].
  assert (Ls : forall a, length (pscale a e) = t) by (intros a; unfold pscale; rewrite map_length; exact Le).
  split; [repeat split; rewrite poly_add_length, ?mask_shift_length, Ls; lia|].
  rewrite !spec_eval_add, !pscale_eval, E1, K1, K2. set (v := spec_eval (m_l m) fzero). split; [field; exact Nk|].
  assert (Q : x = fdiv (fsub (fdiv (fmul (fadd theta (fmul rho x)) (fadd kappa' rz)) (fadd kappa' rz)) theta) rho) by (field; auto).
  rewrite Q, H. field. auto.
Qed.
Lemma open_move po mo d i : open_at (poly_add po d) (poly_add mo (mask_shift d)) i =
  OPedersen (fadd (spec_eval po (node_x i)) (spec_eval d (node_x i))) (fsub (spec_eval mo (node_x i)) (fmul (finv alpha) (spec_eval d (node_x i)))).
Proof. unfold open_at. rewrite !spec_eval_add. unfold mask_shift. rewrite pscale_eval. f_equal. ring. Qed.
Lemma move_share {X : Oracles} pa h rnd key presig ro e0 e c m i : derive_rho h rnd pa key presig = Ok ro -> hash_to_integer h = Ok e0 -> ro_rho ro <> fzero ->
  share_of pa h rnd key presig (move e c (ro_randomizer ro) (fdiv (fadd e0 (fmul (ro_rho ro) (ro_tweak ro))) (ro_rho ro)) m) i = share_of pa h rnd key presig m i.
Proof.
  intros R E Nr. unfold share_of, move. cbn [m_l m_lm m_kl m_klm m_xl m_xlm]. rewrite !open_move. unfold open_at, new_share. rewrite R, E, !bind_Ok.
  cbn [lambda_parts bind]. rewrite !pscale_eval.
  set (th := fadd e0 (fmul (ro_rho ro) (ro_tweak ro))). set (rho := ro_rho ro) in *. set (rz := ro_randomizer ro). set (a := fmul c (spec_eval (m_l m) fzero)).
  set (v := spec_eval e (node_x i)). generalize (spec_eval (m_l m) (node_x i)) (spec_eval (m_lm m) (node_x i)) (spec_eval (m_kl m) (node_x i))
    (spec_eval (m_klm m) (node_x i)) (spec_eval (m_xl m) (node_x i)) (spec_eval (m_xlm m) (node_x i)). intros l lm kl klm xl xlm.
  apply f_equal. f_equal; f_equal; field; auto.
Qed.
End Sim.

(** C83 *)
(** Fix the message and public data, hence rho, the tweak and the rerandomiser,
    and let [x], [kappa] and [x'], [kappa'] be two keys and nonces with which the
    signature is the same.  Then the choices of polynomials for the one and for
    the other correspond one to one such that the commitments, what fewer than
    [t] nodes hold, and the signature shares of all nodes are the same. *)
Theorem C83_shares_depend_on_signature_only :
  forall (X : Oracles) (GO : Grp) (GL : GrpLaws GO) alpha t idx pa hashed randomness key presig ro e x kappa x' kappa',
  genH = smul alpha genG -> alpha <> fzero -> coalition t idx ->
  derive_rho hashed randomness pa key presig = Ok ro -> hash_to_integer hashed = Ok e -> ro_rho ro <> fzero ->
  let theta := fadd e (fmul (ro_rho ro) (ro_tweak ro)) in let rho := ro_rho ro in let rz := ro_randomizer ro in
  fadd kappa rz <> fzero -> fadd kappa' rz <> fzero ->
  fdiv (fadd theta (fmul rho x)) (fadd kappa rz) = fdiv (fadd theta (fmul rho x')) (fadd kappa' rz) ->
  exists f f' : masked -> masked,
    (forall m, masked_for t x kappa m -> masked_for t x' kappa' (f m) /\ f' (f m) = m /\
       masked_view idx (f m) = masked_view idx m /\
       forall i, share_of pa hashed randomness key presig (f m) i = share_of pa hashed randomness key presig m i) /\
    (forall m, masked_for t x' kappa' m -> masked_for t x kappa (f' m) /\ f (f' m) = m /\
       masked_view idx (f' m) = masked_view idx m /\
       forall i, share_of pa hashed randomness key presig (f' m) i = share_of pa hashed randomness key presig m i).
Proof.
  intros X GO GL alpha t idx pa h rnd key presig ro e0 x kappa x' kappa' EH Na Hc R E Nr theta rho rz Nk Nk' S.
  destruct (nodes_ok t idx Hc) as [Nd Nz].
  destruct (sharing_exists t fone (map (fun i => (node_x i, fzero)) idx)) as (e & Le & Se & Pe);
    [rewrite map_map; exact Nd|rewrite map_map; exact Nz|rewrite map_length; apply Hc|].
  assert (Ze : forall i, In i idx -> spec_eval e (node_x i) = fzero).
  { intros i Hi. apply (Pe (node_x i, fzero)). apply in_map_iff. exists i. auto. }
  assert (S1 : fmul (fadd theta (fmul rho x)) (fadd kappa' rz) = fmul (fadd theta (fmul rho x')) (fadd kappa rz)).
  { assert (Q : fmul (fadd theta (fmul rho x)) (fadd kappa' rz) = fmul (fmul (fdiv (fadd theta (fmul rho x)) (fadd kappa rz)) (fadd kappa rz)) (fadd kappa' rz)) by (field; exact Nk).
    rewrite Q, S. field. exact Nk'. }
  set (c := fsub (fdiv (fadd kappa rz) (fadd kappa' rz)) fone). set (c' := fsub (fdiv (fadd kappa' rz) (fadd kappa rz)) fone).
  exists (move alpha e c rz (fdiv theta rho)), (move alpha e c' rz (fdiv theta rho)). split; intros m Hm.
  - split; [apply (move_masked alpha t x kappa); assumption|]. split; [|split].
    + apply (move_back _ t); try assumption; [unfold c, c'; field; auto|apply Hm].
    + apply (move_view _ EH Na t); try assumption. apply Hm.
    + intros i. apply move_share; assumption.
  - split; [apply (move_masked alpha t x' kappa'); try assumption; symmetry; exact S1|]. split; [|split].
    + apply (move_back _ t); try assumption; [unfold c, c'; field; auto|apply Hm].
    + apply (move_view _ EH Na t); try assumption. apply Hm.
    + intros i. apply move_share; assumption.
Qed.
(** so whoever knows the signature (the quotient [s]) can produce all of it
    without the key and the nonce: the nonce that makes the denominator one, and
    the key that makes the numerator [s], do *)
Theorem C83_simulated_from_signature :
  forall (X : Oracles) (GO : Grp) (GL : GrpLaws GO) alpha t idx pa hashed randomness key presig ro e x kappa s,
  genH = smul alpha genG -> alpha <> fzero -> coalition t idx ->
  derive_rho hashed randomness pa key presig = Ok ro -> hash_to_integer hashed = Ok e -> ro_rho ro <> fzero ->
  let theta := fadd e (fmul (ro_rho ro) (ro_tweak ro)) in let rho := ro_rho ro in let rz := ro_randomizer ro in
  fadd kappa rz <> fzero -> s = fdiv (fadd theta (fmul rho x)) (fadd kappa rz) ->
  forall m, masked_for t x kappa m -> exists m', masked_for t (fdiv (fsub s theta) rho) (fsub fone rz) m' /\
    masked_view idx m' = masked_view idx m /\
    forall i, share_of pa hashed randomness key presig m' i = share_of pa hashed randomness key presig m i.
Proof.
  intros X GO GL alpha t idx pa h rnd key presig ro e0 x kappa s EH Na Hc R E Nr theta rho rz Nk S m Hm.
  assert (O : fadd (fsub fone rz) rz = fone) by ring.
  destruct (C83_shares_depend_on_signature_only X GO GL alpha t idx pa h rnd key presig ro e0 x kappa (fdiv (fsub s theta) rho) (fsub fone rz) EH Na Hc R E Nr Nk) as (f & f' & H & _).
  - fold rz. rewrite O. apply (fone_neq_fzero q_prime).
  - fold theta rho rz. rewrite O, <- S. field. split; [exact Nr|exact (fone_neq_fzero q_prime)].
  - destruct (H m Hm) as (A & _ & B & C). exists (f m). auto.
Qed.
Print Assumptions C83_shares_depend_on_signature_only.
Print Assumptions C83_simulated_from_signature.
(** key 5, nonce 6, lambda = 2, threshold 2, one corrupted node *)
Example C83_ex :
  let key := mktranscript (GO := toyG) (CSimple [mul_by_g (of_Z q 5)]) in
  let presig := mktranscript (GO := toyG) (CInterp (CSimple [mul_by_g (of_Z q 6)])) in
  coalition 2 [3] /\
  (exists ro e, derive_rho (X := toyX) (repeat 7 32) (repeat 9 32) [] key presig = Ok ro /\ hash_to_integer (repeat 7 32) = Ok e /\
     ro_rho ro <> fzero /\ fadd (of_Z q 6) (ro_randomizer ro) <> fzero) /\
  masked_for 2 (of_Z q 5) (of_Z q 6) (mkmasked [of_Z q 2; of_Z q 3] [fone; fone] [of_Z q 12; fone] [fone; fzero] [of_Z q 10; of_Z q 8] [fzero; fone]).
Proof.
  intros key presig. split; [split; [repeat constructor; lia|split; [repeat constructor; cbn [In]; lia|cbn; lia]]|]. split.
  - assert (B : match derive_rho (X := toyX) (repeat 7 32) (repeat 9 32) [] key presig, hash_to_integer (repeat 7 32) with
      | Ok ro, Ok _ => negb (feqb (ro_rho ro) fzero) && negb (feqb (fadd (of_Z q 6) (ro_randomizer ro)) fzero) | _, _ => false end = true)
      by (vm_compute; reflexivity).
    destruct (derive_rho _ _ _ key presig) as [ro| | |]; [|discriminate B..]. destruct (hash_to_integer _) as [e| | |]; [|discriminate B..].
    apply andb_prop in B. destruct B as [B1 B2]. apply negb_true_iff in B1, B2. exists ro, e.
    split; [reflexivity|]. split; [reflexivity|]. split; apply feqb_neq; assumption.
  - split; [repeat split|]. cbn [m_l m_kl m_xl]. rewrite !pev_spec, !pev_0. cbn [nth]. split; apply fe_eq; vm_compute; reflexivity.
Qed.
