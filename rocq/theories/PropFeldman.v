(** C98: unmasked dealings and the resharing of a key can be simulated from the public key. *)
From Coq Require Import ZArith Lia Bool String List Ring Field.
From Verif Require Import Base BaseFacts Zmod Fields ModelScalar ProofScalar ModelXmd ModelRo SpecPoly ModelPoly ProofPoly ProofLagrange ProofSecrecy
  ModelGroup GroupFacts SpecGroup ModelCommit ProofCommit PropPoly PropHiding Toy.
Import ListNotations.
Open Scope Z_scope.

(** Spec: the polynomial [z + s * e] with [t] coefficients
    (no code of /repo is modelled here) *)
Definition plus_times (t : nat) (z : list Fq) (s : Fq) (e : list Fq) : list Fq :=
  map (fun n => fadd (nth n z fzero) (fmul s (nth n e fzero))) (seq 0 t).
(** the commitment to it, computed from [K = s*G] without [s] *)
Definition simulated {GO : Grp} (t : nat) (z : list Fq) (K : G) (e : list Fq) : list G :=
  map (fun n => gadd (mul_by_g (nth n z fzero)) (smul (nth n e fzero) K)) (seq 0 t).

Section Sim.
Context {GO : Grp} {GL : GrpLaws GO}.
Lemma plus_times_length t z s e : length (plus_times t z s e) = t.
Proof. unfold plus_times. rewrite map_length, seq_length. reflexivity. Qed.
Lemma plus_times_nth t z s e n : length z = t -> length e = t -> nth n (plus_times t z s e) fzero = fadd (nth n z fzero) (fmul s (nth n e fzero)).
Proof.
  intros Lz Le. destruct (Nat.lt_ge_cases n t) as [H|H].
  - unfold plus_times. rewrite (nth_indep _ fzero (fadd (nth 0 z fzero) (fmul s (nth 0 e fzero)))) by (rewrite map_length, seq_length; exact H).
    rewrite (map_nth (fun n => fadd (nth n z fzero) (fmul s (nth n e fzero)))), seq_nth by exact H. reflexivity.
  - rewrite !nth_overflow by (rewrite ?plus_times_length; lia). ring.
Qed.
Lemma plus_times_eq t z s e : length z = t -> length e = t -> plus_times t z s e = poly_add z (pscale s e).
Proof.
  intros Lz Le. apply (nth_ext _ _ fzero fzero).
  - rewrite plus_times_length, poly_add_length. unfold pscale. rewrite map_length. lia.
  - intros n _. rewrite plus_times_nth, poly_add_nth by assumption. f_equal. change (fmul s (coeff e n) = coeff (pscale s e) n). rewrite pscale_coeff. ring.
Qed.
Lemma plus_times_eval t z s e x : length z = t -> length e = t -> spec_eval (plus_times t z s e) x = fadd (spec_eval z x) (fmul s (spec_eval e x)).
Proof. intros Lz Le. rewrite plus_times_eq, spec_eval_add by assumption. f_equal. rewrite !pev_spec, pscale_pev. ring. Qed.
Lemma plus_times_commits t z s e : length z = t -> length e = t -> simple_view (plus_times t z s e) = Ok (CSimple (simulated t z (mul_by_g s) e)).
Proof.
  intros Lz Le. unfold simple_view. rewrite plus_times_length.
  destruct (simple_create_spec (plus_times t z s e) (Z.of_nat t)) as (l & E & Ll & C); [apply coeffs_below_length; rewrite plus_times_length; lia|lia|].
  rewrite E. do 2 f_equal. rewrite Nat2Z.id in Ll. apply (nth_ext _ _ gzero gzero); [unfold simulated; rewrite map_length, seq_length; exact Ll|].
  intros n Hn. rewrite Ll in Hn. rewrite (C n), plus_times_nth by assumption. unfold simulated.
  rewrite (nth_indep _ gzero (gadd (mul_by_g (nth 0 z fzero)) (smul (nth 0 e fzero) (mul_by_g s)))) by (rewrite map_length, seq_length; exact Hn).
  rewrite (map_nth (fun n => gadd (mul_by_g (nth n z fzero)) (smul (nth n e fzero) (mul_by_g s)))), seq_nth by exact Hn. cbn [Nat.add].
  unfold mul_by_g. rewrite <- smul_mul, <- smul_add. f_equal. ring.
Qed.
(** the polynomial that is one at zero and zero at the coalition's nodes *)
Lemma unit_exists t idx : coalition t idx -> exists e, length e = t /\ spec_eval e fzero = fone /\ forall i, In i idx -> spec_eval e (node_x i) = fzero.
Proof.
  intros Hc. destruct (nodes_ok t idx Hc) as [Nd Nz].
  destruct (sharing_exists t fone (map (fun i => (node_x i, fzero)) idx)) as (e & Le & Se & Pe);
    [rewrite map_map; exact Nd|rewrite map_map; exact Nz|rewrite map_length; apply Hc|].
  exists e. split; [exact Le|]. split; [exact Se|]. intros i Hi. apply (Pe (node_x i, fzero)). apply in_map_iff. exists i. auto.
Qed.
Lemma plus_times_onto t s e po : length e = t -> spec_eval e fzero = fone -> length po = t -> spec_eval po fzero = s ->
  exists! z, length z = t /\ spec_eval z fzero = fzero /\ po = plus_times t z s e.
Proof.
  intros Le Se Lp Sp. exists (plus_times t po (fneg s) e). split.
  - split; [apply plus_times_length|]. split; [rewrite plus_times_eval by assumption; rewrite Sp, Se; ring|].
    apply (nth_ext _ _ fzero fzero); [rewrite plus_times_length; exact Lp|]. intros n _.
    rewrite !plus_times_nth by (rewrite ?plus_times_length; assumption || reflexivity). ring.
  - intros z (Lz & Sz & E). apply (nth_ext _ _ fzero fzero); [rewrite plus_times_length, Lz; reflexivity|]. intros n _.
    rewrite plus_times_nth by assumption. rewrite E, plus_times_nth by assumption. ring.
Qed.
End Sim.

(** C98: there is a fixed [e], depending on the coalition alone, such that
    adding [s * e] turns the sharings [z] of zero one-to-one into the sharings of
    [s]; the coalition's openings are those of [z] and the commitment is computed
    from [z] and [s * G].  So the view of a random sharing of [s] is that of a
    simulator who draws [z] and knows [s * G] only *)
Theorem C98_unmasked_dealing_simulated :
  forall (GO : Grp) (GL : GrpLaws GO) t idx, coalition t idx -> exists e, length e = t /\
    forall s, 
    (forall z, length z = t -> spec_eval z fzero = fzero ->
      let po := plus_times t z s e in
      length po = t /\ spec_eval po fzero = s /\
      map (fun i => spec_eval po (node_x i)) idx = map (fun i => spec_eval z (node_x i)) idx /\
      simple_view po = Ok (CSimple (simulated t z (mul_by_g s) e))) /\
    (forall po, length po = t -> spec_eval po fzero = s ->
      exists! z, length z = t /\ spec_eval z fzero = fzero /\ po = plus_times t z s e).
Proof.
  intros GO GL t idx Hc. destruct (unit_exists t idx Hc) as (e & Le & Se & Ze). exists e. split; [exact Le|]. intros s. split.
  - intros z Lz Sz po. split; [apply plus_times_length|]. unfold po. split; [rewrite plus_times_eval by assumption; rewrite Sz, Se; ring|]. split.
    + apply map_ext_in. intros i Hi. rewrite plus_times_eval, (Ze i Hi) by assumption. ring.
    + apply plus_times_commits; assumption.
  - intros po. apply plus_times_onto; assumption.
Qed.
Print Assumptions C98_unmasked_dealing_simulated.

(** a whole round that reshares a masked secret [x] into an unmasked key
    [K = x * G]: [P] shares [x], every dealer [j] deals [P(j)] by [po j].  With
    the same [e], the coalition's old openings, all dealers' commitments and the
    coalition's openings of all dealings are functions of [K] and of random
    sharings [zP], [z j] of zero, and the correspondence is one-to-one *)
Theorem C98_resharing_round_simulated :
  forall (GO : Grp) (GL : GrpLaws GO) t idx, coalition t idx -> exists e, length e = t /\
    forall x, let K := mul_by_g x in
    (forall zP (z : Z -> list Fq), length zP = t -> spec_eval zP fzero = fzero -> (forall j, length (z j) = t /\ spec_eval (z j) fzero = fzero) ->
      let P := plus_times t zP x e in let po := fun j => plus_times t (z j) (spec_eval P (node_x j)) e in
      let Kj := fun j => gadd (mul_by_g (spec_eval zP (node_x j))) (smul (spec_eval e (node_x j)) K) in
      spec_eval P fzero = x /\ (forall j, spec_eval (po j) fzero = spec_eval P (node_x j)) /\
      (forall i, In i idx -> spec_eval P (node_x i) = spec_eval zP (node_x i) /\ forall j, spec_eval (po j) (node_x i) = spec_eval (z j) (node_x i)) /\
      forall j, simple_view (po j) = Ok (CSimple (simulated t (z j) (Kj j) e))) /\
    (forall P (po : Z -> list Fq), length P = t -> spec_eval P fzero = x -> (forall j, length (po j) = t /\ spec_eval (po j) fzero = spec_eval P (node_x j)) ->
      (exists! zP, length zP = t /\ spec_eval zP fzero = fzero /\ P = plus_times t zP x e) /\
      forall j, exists! z, length z = t /\ spec_eval z fzero = fzero /\ po j = plus_times t z (spec_eval P (node_x j)) e).
Proof.
  intros GO GL t idx Hc. destruct (unit_exists t idx Hc) as (e & Le & Se & Ze). exists e. split; [exact Le|]. intros x K. split.
  - intros zP z LP SP Hz P po Kj. split; [unfold P; rewrite plus_times_eval by assumption; rewrite SP, Se; ring|]. split; [|split].
    + intros j. destruct (Hz j) as [Lz Sz]. unfold po. rewrite plus_times_eval by assumption. rewrite Sz, Se. ring.
    + intros i Hi. split; [unfold P; rewrite plus_times_eval, (Ze i Hi) by assumption; ring|]. intros j. destruct (Hz j) as [Lz _]. unfold po.
      rewrite plus_times_eval, (Ze i Hi) by assumption. ring.
    + intros j. destruct (Hz j) as [Lz _]. unfold po. rewrite plus_times_commits by assumption. do 2 f_equal. f_equal. unfold P, Kj, K.
      rewrite plus_times_eval by assumption. unfold mul_by_g. rewrite <- smul_mul, <- smul_add. f_equal. ring.
  - intros P po LP SP Hp. split; [apply plus_times_onto; assumption|]. intros j. destruct (Hp j) as [Lj Sj]. apply plus_times_onto; assumption.
Qed.
Print Assumptions C98_resharing_round_simulated.

(** the hypotheses can be met *)
Example C98_ex : coalition 3 [0; 4] /\ length [fzero; of_Z q 1; of_Z q 2] = 3%nat /\ spec_eval [fzero; of_Z q 1; of_Z q 2] fzero = fzero.
Proof.
  split; [split; [repeat constructor; lia|split; [repeat constructor; cbn [In]; lia|cbn; lia]]|]. split; [reflexivity|].
  rewrite pev_spec, pev_0. reflexivity.
Qed.
