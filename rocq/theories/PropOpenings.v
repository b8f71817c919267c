(** Property C67: VerifyCommitmentOpenings of testutils/protocol_round.go. *)
From Coq Require Import ZArith Lia Bool String List Ring Field.
From Verif Require Import Base BaseFacts Zmod Fields ModelScalar ProofScalar ModelXmd ModelRo SpecPoly SpecGroup ModelPoly ProofPoly ProofLagrange
  ModelGroup GroupFacts ModelCommit ProofCommit ModelZk ModelMega ModelDealing ModelComplaint ModelProtocol ProofTranscript.
From Verif Require Import ExLagrange Toy.
Import ListNotations.
Open Scope Z_scope.

(** the openings of one kind with their positions *)
Fixpoint simple_at (i : Z) (os : list opening) : list (Z * Fq) :=
  match os with
  | [] => []
  | OSimple v :: os => (i, v) :: simple_at (i + 1) os
  | _ :: os => simple_at (i + 1) os
  end.
Fixpoint pedersen_at (i : Z) (os : list opening) : list (Z * (Fq * Fq)) :=
  match os with
  | [] => []
  | OPedersen v m :: os => (i, (v, m)) :: pedersen_at (i + 1) os
  | _ :: os => pedersen_at (i + 1) os
  end.
(** value at zero of the polynomial through the points (x_k, v_k) *)
Definition value_at_zero (ks : list Z) (vs : list Fq) : Fq :=
  fsum (map (fun j => fmul (nth j vs fzero) (spec_lagrange fzero (map node_x ks) j)) (seq 0 (length ks))).

Lemma simple_samples_at os : simple_samples os = simple_at 0 os.
Proof.
  unfold simple_samples. change 0 with (Z.of_nat 0). generalize 0%nat as k.
  induction os as [|o os IH]; intros k; [reflexivity|]. cbn [length seq combine flat_map fst snd simple_at].
  rewrite IH. replace (Z.of_nat (S k)) with (Z.of_nat k + 1) by lia. destruct o; reflexivity.
Qed.
Lemma pedersen_samples_at os : pedersen_samples os = pedersen_at 0 os.
Proof.
  unfold pedersen_samples. change 0 with (Z.of_nat 0). generalize 0%nat as k.
  induction os as [|o os IH]; intros k; [reflexivity|]. cbn [length seq combine flat_map fst snd pedersen_at].
  rewrite IH. replace (Z.of_nat (S k)) with (Z.of_nat k + 1) by lia. destruct o; reflexivity.
Qed.
Lemma simple_at_in os : forall i k v, In (k, v) (simple_at i os) <-> exists n, k = i + Z.of_nat n /\ nth_error os n = Some (OSimple v).
Proof.
  induction os as [|o os IH]; intros i k v; cbn [simple_at].
  { split; [intros []|]. intros ([|n] & _ & H); discriminate. }
  assert (S : (exists n, k = i + Z.of_nat n /\ nth_error (o :: os) n = Some (OSimple v)) <->
    (k = i /\ o = OSimple v) \/ In (k, v) (simple_at (i + 1) os)).
  { rewrite IH. split.
    - intros ([|n] & E & H); cbn [nth_error] in H; [left; split; [lia|congruence]|right; exists n; split; [lia|exact H]].
    - intros [(-> & ->)|(n & E & H)]; [exists 0%nat; split; [lia|reflexivity]|exists (S n); split; [lia|exact H]]. }
  rewrite S. destruct o; cbn [In]; split; intro H;
    repeat match goal with
    | H : _ \/ _ |- _ => destruct H as [H|H]
    | H : _ /\ _ |- _ => destruct H as [? H]; subst
    | H : (_, _) = (_, _) |- _ => injection H as <- <-
    | H : OSimple _ = OSimple _ |- _ => injection H as ->
    | H : _ = OSimple _ |- _ => discriminate H
    end; auto.
Qed.
Lemma pedersen_at_in os : forall i k v, In (k, v) (pedersen_at i os) <-> exists n, k = i + Z.of_nat n /\ nth_error os n = Some (OPedersen (fst v) (snd v)).
Proof.
  induction os as [|o os IH]; intros i k [v w]; cbn [pedersen_at fst snd].
  { split; [intros []|]. intros ([|n] & _ & H); discriminate. }
  assert (S : (exists n, k = i + Z.of_nat n /\ nth_error (o :: os) n = Some (OPedersen v w)) <->
    (k = i /\ o = OPedersen v w) \/ In (k, (v, w)) (pedersen_at (i + 1) os)).
  { rewrite IH. cbn [fst snd]. split.
    - intros ([|n] & E & H); cbn [nth_error] in H; [left; split; [lia|congruence]|right; exists n; split; [lia|exact H]].
    - intros [(-> & ->)|(n & E & H)]; [exists 0%nat; split; [lia|reflexivity]|exists (S n); split; [lia|exact H]]. }
  rewrite S. destruct o; cbn [In]; split; intro H;
    repeat match goal with
    | H : _ \/ _ |- _ => destruct H as [H|H]
    | H : _ /\ _ |- _ => destruct H as [? H]; subst
    | H : (_, _) = (_, _) |- _ => injection H as <- <- <-
    | H : OPedersen _ _ = OPedersen _ _ |- _ => injection H as -> ->
    | H : _ = OPedersen _ _ |- _ => discriminate H
    end; auto.
Qed.
Lemma simple_at_keys os : forall i, 0 <= i -> i + Z.of_nat (length os) < 2 ^ 63 ->
  Forall int64_ok (map fst (simple_at i os)) /\ NoDup (map fst (simple_at i os)).
Proof.
  induction os as [|o os IH]; intros i Hi L; cbn [simple_at map length] in *; [split; constructor|].
  destruct (IH (i + 1) ltac:(lia) ltac:(lia)) as [A B].
  destruct o; try (split; assumption). cbn [map fst]. split; constructor; auto. { unfold int64_ok. lia. }
  intro H. apply in_map_iff in H. destruct H as ([k w] & E & H). cbn [fst] in E. subst k. apply simple_at_in in H. destruct H as (n & E & _). lia.
Qed.
Lemma pedersen_at_keys os : forall i, 0 <= i -> i + Z.of_nat (length os) < 2 ^ 63 ->
  Forall int64_ok (map fst (pedersen_at i os)) /\ NoDup (map fst (pedersen_at i os)).
Proof.
  induction os as [|o os IH]; intros i Hi L; cbn [pedersen_at map length] in *; [split; constructor|].
  destruct (IH (i + 1) ltac:(lia) ltac:(lia)) as [A B].
  destruct o; try (split; assumption). cbn [map fst]. split; constructor; auto. { unfold int64_ok. lia. }
  intro H. apply in_map_iff in H. destruct H as ([k w] & E & H). cbn [fst] in E. subst k. apply pedersen_at_in in H. destruct H as (n & E & _). lia.
Qed.
Lemma interp_value ks vs cs : Forall int64_ok ks -> NoDup ks -> ks <> [] -> length vs = length ks -> lagrange_at_zero ks = Ok cs ->
  interpolate_scalar cs vs = Ok (value_at_zero ks vs).
Proof.
  intros F N E L H. unfold lagrange_at_zero in H. rewrite (lagrange_value_spec _ _ F N E) in H. injection H as <-.
  rewrite interpolate_scalar_sum.
  - unfold value_at_zero. rewrite map_length, seq_length. f_equal. apply fsum_map_ext. intros j Hj. apply in_seq in Hj.
    rewrite nth_map_seq by lia. rewrite (map_ext from_node_index node_x node_x_eq). reflexivity.
  - rewrite map_length, seq_length. exact L.
  - destruct ks; [congruence|discriminate].
Qed.
Lemma map_nil_inv {A B} (f : A -> B) l : l <> [] -> map f l <> []. Proof. destruct l; [congruence|discriminate]. Qed.

(** Exactly what is checked: the openings of the kind that belongs to the
    commitment, all together, against the constant term. *)
Theorem C67_accepts_exactly : forall (GO : Grp) (GL : GrpLaws GO) p l os, Z.of_nat (length os) < 2 ^ 63 ->
  (let ss := simple_at 0 os in
   (verify_commitment_openings (CSimple (p :: l)) os = Ok tt <->
     ss <> [] /\ smul (value_at_zero (map fst ss) (map snd ss)) genG = p) /\
   (verify_commitment_openings (CSimple (p :: l)) os = Ok tt \/ verify_commitment_openings (CSimple (p :: l)) os = Err)) /\
  (let ss := pedersen_at 0 os in
   (verify_commitment_openings (CPedersen (p :: l)) os = Ok tt <->
     ss <> [] /\ pedersen (value_at_zero (map fst ss) (map (fun e => fst (snd e)) ss))
                          (value_at_zero (map fst ss) (map (fun e => snd (snd e)) ss)) = p) /\
   (verify_commitment_openings (CPedersen (p :: l)) os = Ok tt \/ verify_commitment_openings (CPedersen (p :: l)) os = Err)).
Proof.
  intros GO GL p l os L. split; cbv zeta.
  - unfold verify_commitment_openings, c_constant_term, c_points; cbn [unwrap bind]. rewrite simple_samples_at.
    destruct (simple_at_keys os 0 ltac:(lia) ltac:(lia)) as [F N]. set (ss := simple_at 0 os) in *. clearbody ss.
    destruct ss as [|s0 ss0]; [split; [split; [discriminate|intros [H _]; congruence]|right; reflexivity]|].
    assert (Hn : s0 :: ss0 <> []) by discriminate. set (ss := s0 :: ss0) in *. clearbody ss.
    destruct (lagrange_ok fzero _ F N (map_nil_inv fst ss Hn)) as (cs & Ec & _). change (lagrange_at_zero (map fst ss) = Ok cs) in Ec. rewrite Ec; cbn [bind].
    rewrite (interp_value _ (map snd ss) cs F N (map_nil_inv fst ss Hn)) by (rewrite ?map_length; auto). cbn [bind].
    unfold guard, mul_by_g. match goal with |- context [geqb ?a p] => destruct (geqb a p) eqn:Eg end.
    + apply geqb_iff in Eg. split; [split; auto|auto].
    + split; [|auto]. split; [discriminate|]. intros [_ H]. apply geqb_iff in H. congruence.
  - unfold verify_commitment_openings, c_constant_term, c_points; cbn [unwrap bind]. rewrite pedersen_samples_at.
    destruct (pedersen_at_keys os 0 ltac:(lia) ltac:(lia)) as [F N]. set (ss := pedersen_at 0 os) in *. clearbody ss.
    destruct ss as [|s0 ss0]; [split; [split; [discriminate|intros [H _]; congruence]|right; reflexivity]|].
    assert (Hn : s0 :: ss0 <> []) by discriminate. set (ss := s0 :: ss0) in *. clearbody ss.
    destruct (lagrange_ok fzero _ F N (map_nil_inv fst ss Hn)) as (cs & Ec & _). change (lagrange_at_zero (map fst ss) = Ok cs) in Ec. rewrite Ec; cbn [bind].
    rewrite (interp_value _ (map (fun e => fst (snd e)) ss) cs F N (map_nil_inv fst ss Hn)) by (rewrite ?map_length; auto). cbn [bind].
    rewrite (interp_value _ (map (fun e => snd (snd e)) ss) cs F N (map_nil_inv fst ss Hn)) by (rewrite ?map_length; auto). cbn [bind].
    unfold guard. match goal with |- context [geqb ?a p] => destruct (geqb a p) eqn:Eg end.
    + apply geqb_iff in Eg. split; [split; auto|auto].
    + split; [|auto]. split; [discriminate|]. intros [_ H]. apply geqb_iff in H. congruence.
Qed.
Print Assumptions C67_accepts_exactly.

Lemma value_scal {GO : Grp} {GL : GrpLaws GO} ks vs P cs : Forall int64_ok ks -> NoDup ks -> ks <> [] -> length vs = length ks ->
  lagrange_at_value fzero ks = Ok cs -> smul (value_at_zero ks vs) P = wsum cs (map (fun v => smul v P) vs).
Proof.
  intros F N E L H. pose proof (interp_value ks vs cs F N E L H) as I.
  destruct (lagrange_ok fzero ks F N E) as (cs' & E' & Lc & Nc). assert (cs' = cs) as -> by congruence.
  rewrite interpolate_scalar_wsum in I by congruence. rewrite (wsum_scal (fun v => v) P vs cs), map_id. congruence.
Qed.

(** Correct openings are accepted, even if openings of the other kind or
    pointers are among them, as long as there are enough. *)
Theorem C67_correct_openings_accepted : forall (GO : Grp) (GL : GrpLaws GO) l os, l <> [] -> Z.of_nat (length os) < 2 ^ 63 ->
  ((length l <= length (simple_at 0 os))%nat ->
   (forall i v, In (i, v) (simple_at 0 os) -> c_check_opening (CSimple l) i (OSimple v) = Ok true) ->
   verify_commitment_openings (CSimple l) os = Ok tt) /\
  ((length l <= length (pedersen_at 0 os))%nat ->
   (forall i v m, In (i, (v, m)) (pedersen_at 0 os) -> c_check_opening (CPedersen l) i (OPedersen v m) = Ok true) ->
   verify_commitment_openings (CPedersen l) os = Ok tt).
Proof.
  intros GO GL l os Hl L. destruct l as [|p l]; [congruence|]. destruct (C67_accepts_exactly GO GL p l os L) as [[A _] [B _]]. split; intros Le Hc.
  - apply A. clear A B. destruct (simple_at_keys os 0 ltac:(lia) ltac:(lia)) as [F N]. set (ss := simple_at 0 os) in *. clearbody ss.
    assert (Hn : ss <> []) by (intros ->; cbn [length] in Le; lia). split; [exact Hn|].
    destruct (lagrange_ok fzero _ F N (map_nil_inv fst ss Hn)) as (cs & Ec & _).
    rewrite (value_scal _ _ genG cs F N (map_nil_inv fst ss Hn)) by (rewrite ?map_length; auto).
    replace (map (fun v => smul v genG) (map snd ss)) with (map (fun k => gev (p :: l) (from_node_index k)) (map fst ss)).
    + rewrite (lagrange_wsum fzero _ (gev (p :: l)) cs F N Ec) by (apply gisp_gev; rewrite map_length; exact Le). rewrite gev_0. reflexivity.
    + rewrite !map_map. apply map_ext_in. intros [k v] Hin. cbn [fst snd].
      destruct (check_true_simple (CSimple (p :: l)) k (OSimple v) (p :: l) eq_refl (Hc k v Hin)) as (_ & _ & E). exact E.
  - apply B. clear A B. destruct (pedersen_at_keys os 0 ltac:(lia) ltac:(lia)) as [F N]. set (ss := pedersen_at 0 os) in *. clearbody ss.
    assert (Hn : ss <> []) by (intros ->; cbn [length] in Le; lia). split; [exact Hn|].
    destruct (lagrange_ok fzero _ F N (map_nil_inv fst ss Hn)) as (cs & Ec & _). unfold pedersen, mul_points.
    rewrite (value_scal _ _ genG cs F N (map_nil_inv fst ss Hn)) by (rewrite ?map_length; auto).
    rewrite (value_scal _ _ genH cs F N (map_nil_inv fst ss Hn)) by (rewrite ?map_length; auto).
    rewrite !map_map. rewrite <- wsum_add.
    replace (map (fun a => gadd (smul (fst (snd a)) genG) (smul (snd (snd a)) genH)) ss) with (map (fun k => gev (p :: l) (from_node_index k)) (map fst ss)).
    + rewrite (lagrange_wsum fzero _ (gev (p :: l)) cs F N Ec) by (apply gisp_gev; rewrite map_length; exact Le). rewrite gev_0. reflexivity.
    + rewrite !map_map. apply map_ext_in. intros [k [v m]] Hin. cbn [fst snd].
      destruct (check_true_pedersen (CPedersen (p :: l)) k (OPedersen v m) (p :: l) eq_refl (Hc k v m Hin)) as (_ & _ & E). exact E.
Qed.
Print Assumptions C67_correct_openings_accepted.

(** Acceptance does not mean that the openings are correct: adding t * x_i to
    opening i, for any t, keeps any accepted list of two or more openings
    accepted, and makes every correct opening wrong when t is not zero. *)
Definition tilt (t : Fq) (vs : list Fq) : list Fq :=
  map (fun e => fadd (snd e) (fmul t (node_x (Z.of_nat (fst e))))) (combine (seq 0 (length vs)) vs).
Lemma simple_at_map vs : forall i, simple_at i (map OSimple vs) = combine (map (fun n => i + Z.of_nat n) (seq 0 (length vs))) vs.
Proof.
  induction vs as [|v vs IH]; intro i; [reflexivity|]. cbn [map simple_at length seq combine]. rewrite IH. f_equal; [f_equal; lia|].
  f_equal. rewrite <- seq_shift, map_map. apply map_ext. intro n. lia.
Qed.
Lemma map_fst_combine {A B} (a : list A) (b : list B) : length a = length b -> map fst (combine a b) = a /\ map snd (combine a b) = b.
Proof.
  revert b. induction a as [|x a IH]; intros [|y b] H; cbn [length] in H; try lia; [auto|]. destruct (IH b ltac:(lia)) as [A1 A2].
  cbn [combine map fst snd]. rewrite A1, A2. auto.
Qed.
Lemma tilt_length t vs : length (tilt t vs) = length vs.
Proof. unfold tilt. rewrite map_length, combine_length, seq_length. lia. Qed.
Lemma tilt_nth t vs j : (j < length vs)%nat -> nth j (tilt t vs) fzero = fadd (nth j vs fzero) (fmul t (node_x (Z.of_nat j))).
Proof.
  intro H. unfold tilt. set (f := fun e : nat * Fq => fadd (snd e) (fmul t (node_x (Z.of_nat (fst e))))).
  rewrite (nth_indep _ fzero (f (0%nat, fzero))) by (rewrite map_length, combine_length, seq_length; lia).
  rewrite map_nth, combine_nth by apply seq_length. rewrite seq_nth by exact H. reflexivity.
Qed.
Lemma fsum_map_plus {A} (f g : A -> Fq) l : fsum (map (fun a => fadd (f a) (g a)) l) = fadd (fsum (map f l)) (fsum (map g l)).
Proof. induction l as [|a l IH]; cbn [map]; [unfold fsum; cbn [fold_right]; ring|]. rewrite !fsum_cons, IH. ring. Qed.
Lemma value_tilt t vs : (2 <= length vs)%nat -> Z.of_nat (length vs) < 2 ^ 63 ->
  let ks := map (fun n => 0 + Z.of_nat n) (seq 0 (length vs)) in value_at_zero ks (tilt t vs) = value_at_zero ks vs.
Proof.
  intros L B ks. assert (Lk : length ks = length vs) by (unfold ks; rewrite map_length, seq_length; reflexivity).
  assert (F : Forall int64_ok ks).
  { apply Forall_forall. intros k Hk. apply in_map_iff in Hk. destruct Hk as (n & <- & Hn). apply in_seq in Hn. unfold int64_ok. lia. }
  assert (N : NoDup ks).
  { unfold ks. apply FinFun.Injective_map_NoDup; [|apply seq_NoDup]. intros a b Hab. lia. }
  unfold value_at_zero.
  rewrite (fsum_map_ext _ (fun j => fadd (fmul (nth j vs fzero) (spec_lagrange fzero (map node_x ks) j))
                                         (fmul (fmul t (nth j (map node_x ks) fzero)) (spec_lagrange fzero (map node_x ks) j)))).
  2:{ intros j Hj. apply in_seq in Hj. rewrite tilt_nth by lia.
      replace (nth j (map node_x ks) fzero) with (node_x (Z.of_nat j)); [ring|].
      rewrite (nth_indep _ fzero (node_x 0)) by (rewrite map_length; lia). rewrite map_nth. unfold ks.
      rewrite (nth_indep _ 0 (0 + Z.of_nat 0)) by (rewrite map_length, seq_length; lia).
      rewrite (map_nth (fun n => 0 + Z.of_nat n)), seq_nth by lia. reflexivity. }
  rewrite (fsum_map_plus _ _ (seq 0 (length ks))). rewrite <- (map_length node_x ks) at 2.
  assert (D : NoDup (map node_x ks)).
  { rewrite <- (map_ext from_node_index node_x node_x_eq). apply nodes_nodup; assumption. }
  rewrite (lagrange_sum (map node_x ks) (fun x => fmul t x) D).
  - ring.
  - apply isp_scale. exists [fzero; fone]. split; [cbn [length]; rewrite map_length; lia|]. intro v. cbn [pev]. ring.
Qed.
Theorem C67_each_opening_checked_refuted : forall (GO : Grp) (GL : GrpLaws GO) p l vs t, (2 <= length vs)%nat -> Z.of_nat (length vs) < 2 ^ 63 ->
  (verify_commitment_openings (CSimple (p :: l)) (map OSimple vs) = Ok tt ->
   verify_commitment_openings (CSimple (p :: l)) (map OSimple (tilt t vs)) = Ok tt) /\
  (t <> fzero -> forall i v v', nth_error vs i = Some v -> nth_error (tilt t vs) i = Some v' ->
   c_check_opening (CSimple (p :: l)) (Z.of_nat i) (OSimple v) = Ok true ->
   c_check_opening (CSimple (p :: l)) (Z.of_nat i) (OSimple v') = Ok false).
Proof.
  intros GO GL p l vs t L B. split.
  - intro H. apply (C67_accepts_exactly GO GL p l) in H; [|rewrite map_length; exact B].
    apply (C67_accepts_exactly GO GL p l); [rewrite map_length, tilt_length; exact B|]. revert H.
    rewrite !simple_at_map, tilt_length.
    destruct (map_fst_combine (map (fun n => 0 + Z.of_nat n) (seq 0 (length vs))) vs) as [-> ->]; [rewrite map_length, seq_length; reflexivity|].
    destruct (map_fst_combine (map (fun n => 0 + Z.of_nat n) (seq 0 (length vs))) (tilt t vs)) as [-> ->];
      [rewrite map_length, seq_length, tilt_length; reflexivity|].
    rewrite value_tilt by assumption. intros [_ H]. split; [|exact H].
    pose proof (tilt_length t vs). destruct (tilt t vs) as [|v0 r0]; cbn [length] in *; [lia|].
    destruct (length vs); [lia|]. discriminate.
  - intros Nt i v v' Hv Hv' C. assert (Hi : (i < length vs)%nat) by (apply nth_error_Some; congruence).
    apply (nth_error_nth _ _ fzero) in Hv. apply (nth_error_nth _ _ fzero) in Hv'. rewrite tilt_nth in Hv' by exact Hi. rewrite Hv in Hv'.
    assert (Nx : node_x (Z.of_nat i) <> fzero).
    { rewrite <- node_x_eq. intro H. pose proof (nodes_nodup [Z.of_nat i; -1]) as D. cbn [map] in D.
      assert (E1 : from_node_index (-1) = fzero) by (apply fe_eq; vm_compute; reflexivity).
      rewrite H, E1 in D. assert (X : NoDup [@fzero q; fzero]).
      { apply D. - repeat constructor; unfold int64_ok; lia. - repeat constructor; cbn [In]; intuition lia. }
      inversion X. apply H2. left. reflexivity. }
    destruct (c_check_opening (CSimple (p :: l)) (Z.of_nat i) (OSimple v')) as [[|]| | |] eqn:C'; [|reflexivity| | |].
    + exfalso. pose proof (check_simple_binding _ _ _ _ C C') as E. rewrite <- Hv' in E.
      assert (Z0 : fmul t (node_x (Z.of_nat i)) = fzero) by (apply (fadd_self_zero v); auto).
      apply (fmul_integral q_prime) in Z0; tauto.
    + unfold c_check_opening in C'. cbn [unwrap] in C'. rewrite eval_points_gev in C' by discriminate. discriminate.
    + unfold c_check_opening in C'. cbn [unwrap] in C'. rewrite eval_points_gev in C' by discriminate. discriminate.
    + unfold c_check_opening in C'. cbn [unwrap] in C'. rewrite eval_points_gev in C' by discriminate. discriminate.
Qed.
Print Assumptions C67_each_opening_checked_refuted.

(** A commitment as it comes in a transcript of unmasked resharing is wrapped;
    the type assertion then fails and correct openings are always rejected. *)
Theorem C67_wrapped_commitment_rejected : forall (GO : Grp) (GL : GrpLaws GO) c l vs, c = CInterp (CSimple l) \/ c = CSum (CSimple l) -> l <> [] ->
  verify_commitment_openings c (map OSimple vs) = Err.
Proof.
  intros GO GL c l vs Hc Hl. destruct l as [|p l]; [congruence|].
  assert (E : pedersen_samples (map OSimple vs) = []).
  { rewrite pedersen_samples_at. generalize 0. induction vs as [|v vs IH]; intro i; [reflexivity|]. cbn [map pedersen_at]. apply IH. }
  destruct Hc as [-> | ->]; unfold verify_commitment_openings, c_constant_term, c_points; cbn [unwrap bind]; rewrite E; reflexivity.
Qed.
Print Assumptions C67_wrapped_commitment_rejected.

(** openings of 4 + 9x: accepted; tilted by 5: still accepted, though wrong *)
Lemma ex_verify {GO : Grp} P l (a b : Fq) :
  verify_commitment_openings (CSimple (P :: l)) (map OSimple [a; b]) = guard (geqb (mul_by_g (fadd (fadd fzero (fmul a (of_Z q 2))) (fmul b (of_Z q (-1))))) P).
Proof.
  unfold verify_commitment_openings. cbn [c_constant_term c_points unwrap bind map simple_samples combine seq length flat_map snd fst app].
  change [Z.of_nat 0; Z.of_nat 1] with [0; 1]. rewrite ex_lagrange_01. reflexivity.
Qed.
Lemma ex_tilt (t a b : Fq) : tilt t [a; b] = [fadd a (fmul t (node_x 0)); fadd b (fmul t (node_x 1))].
Proof. reflexivity. Qed.
Definition ex_checks {GO : Grp} (P Q : G) (a b t b' : Fq) : bool :=
  let c := CSimple [P; Q] in let vs := [a; b] in
  (is_ok (verify_commitment_openings c (map OSimple vs))
   && is_ok (verify_commitment_openings c (map OSimple (tilt t vs)))
   && match c_check_opening c 0 (OSimple (nth 0 (tilt t vs) fzero)) with Ok b => negb b | _ => false end
   && negb (is_ok (verify_commitment_openings (CInterp c) (map OSimple vs)))
   && negb (is_ok (verify_commitment_openings c (map OSimple [a; b']))))%bool.
Lemma ex_checks_eq {GO : Grp} (P Q : G) (a b t b' : Fq) : ex_checks P Q a b t b' =
  let at_zero a b := mul_by_g (fadd (fadd fzero (fmul a (of_Z q 2))) (fmul b (of_Z q (-1)))) in
  let a' := fadd a (fmul t (node_x 0)) in
  (is_ok (guard (geqb (at_zero a b) P)) && is_ok (guard (geqb (at_zero a' (fadd b (fmul t (node_x 1)))) P))
   && match c_check_opening (CSimple [P; Q]) 0 (OSimple a') with Ok b => negb b | _ => false end
   && negb (is_ok (verify_commitment_openings (CInterp (CSimple [P; Q])) (map OSimple [a; b])))
   && negb (is_ok (guard (geqb (at_zero a b') P))))%bool.
Proof. unfold ex_checks. cbv zeta. rewrite ex_tilt, !ex_verify. reflexivity. Qed.
Example C67_ex : ex_checks (mul_by_g (of_Z q 4)) (mul_by_g (of_Z q 9)) (of_Z q 13) (of_Z q 22) (of_Z q 5) (of_Z q 23) = true.
Proof. etransitivity; [apply ex_checks_eq|]. vm_compute. reflexivity. Qed.
