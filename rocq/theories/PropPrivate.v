(** C111: what private verification by the receivers establishes about a dealing. *)
From Coq Require Import ZArith Lia Bool String List Ring Field.
From Verif Require Import Base BaseFacts Zmod Fields ModelScalar ProofScalar ModelXmd ModelRo SpecPoly ModelPoly ProofPoly
  ProofLagrange ModelGroup GroupFacts SpecGroup ModelCommit ProofCommit ModelZk ModelMega ModelDealing SpecDealing ProofDealing ProofTranscript
  ProofSign SpecMalicious PropMalicious PropDealing PropRobust.
From Verif Require Import Toy.
Import ListNotations.
Open Scope Z_scope.

Section Spec.
Context {GO : Grp}.
(** Spec: the opening [o] satisfies the commitment equation at node [i] *)
Definition opens_at (c : commitment) (i : Z) (o : opening) : Prop :=
  match unwrap c, o with
  | CSimple l, OSimple v => l <> [] /\ smul v genG = spec_geval l (node_x i)
  | CPedersen l, OPedersen v m => l <> [] /\ gadd (smul v genG) (smul m genH) = spec_geval l (node_x i)
  | _, _ => False
  end.
End Spec.

Section Facts.
Context {GO : Grp} {GL : GrpLaws GO}.
Lemma check_opens c i o : c_check_opening c i o = Ok true <-> opens_at c i o.
Proof.
  unfold c_check_opening, opens_at. destruct (unwrap c) as [l|l| | |]; destruct o;
    try (split; [discriminate|contradiction]); rewrite eval_points_spec; destruct l as [|P l];
    (split; [intros H|intros [N H]]); try discriminate H; try congruence; cbn [bind] in *.
  - apply Ok_inj in H. apply geqb_iff in H. split; [discriminate|]. symmetry. exact H.
  - f_equal. apply geqb_iff. symmetry. exact H.
  - apply Ok_inj in H. apply geqb_iff in H. split; [discriminate|]. symmetry. exact H.
  - f_equal. apply geqb_iff. symmetry. exact H.
Qed.
Lemma opens_points c i o : opens_at c i o -> exists P l, c_points c = Ok (P :: l).
Proof.
  unfold opens_at, c_points. destruct (unwrap c) as [l|l| | |]; destruct o; try contradiction; intros [N _];
    (destruct l as [|P l]; [congruence|eauto]).
Qed.
End Facts.

(** accepted exactly when the decrypted opening satisfies the commitment equation *)
Theorem C111_private_exact : forall (X : Oracles) (GO : Grp) (GL : GrpLaws GO) d sk pk ad dealer i,
  private_verify d sk pk ad dealer i = Ok tt <->
  exists o, m_decrypt (d_ct d) ad dealer i sk pk = Ok o /\ opens_at (d_cm d) i o.
Proof.
  intros X GO GL d sk pk ad k i. unfold private_verify, m_decrypt_and_check. split.
  - intros H. apply bind_inv in H. destruct H as (P & _ & H). apply bind_inv in H. destruct H as (o & H & _).
    apply bind_inv in H. destruct H as (o' & E & H). apply bind_inv in H. destruct H as (b & C & H).
    destruct b; [|discriminate H]. exists o'. split; [exact E|]. apply check_opens, C.
  - intros (o & E & C). destruct (opens_points _ _ _ C) as (P & l & Hp). unfold c_constant_term. rewrite Hp, !bind_Ok, E, bind_Ok.
    apply check_opens in C. rewrite C. reflexivity.
Qed.
Theorem C111_otherwise_rejected : forall (X : Oracles) (HX : oracles_ok X) (GO : Grp) (GL : GrpLaws GO) d op threshold dealer receivers ad i sk pk,
  publicly_verify d op threshold dealer receivers ad = Ok tt -> 0 <= i < receivers ->
  ~ (exists o, m_decrypt (d_ct d) ad dealer i sk pk = Ok o /\ opens_at (d_cm d) i o) ->
  private_verify d sk pk ad dealer i = Err.
Proof.
  intros X HX GO GL d op th k n ad i sk pk V Hi N.
  destruct (C38_receivers_never_panic X HX GO GL d op th k n ad V i sk pk Hi) as [E|E]; [|exact E].
  exfalso. exact (N (proj1 (C111_private_exact X GO GL d sk pk ad k i) E)).
Qed.

(** an opener hands over its decrypted share exactly when it matches *)
Theorem C111_opened_exact : forall (X : Oracles) (GO : Grp) (GL : GrpLaws GO) d ad dealer i sk pk o,
  open_dealing d ad dealer i sk pk = Ok o <-> m_decrypt (d_ct d) ad dealer i sk pk = Ok o /\ opens_at (d_cm d) i o.
Proof.
  intros X GO GL d ad k i sk pk o. unfold open_dealing, m_decrypt_and_check. split.
  - intros H. apply bind_inv in H. destruct H as (o' & E & H). apply bind_inv in H. destruct H as (b & C & H).
    destruct b; [|discriminate H]. apply Ok_inj in H. subst o'. split; [exact E|]. apply check_opens, C.
  - intros [E C]. rewrite E, bind_Ok. apply check_opens in C. rewrite C. reflexivity.
Qed.

Section Shares.
Context {GO : Grp} {GL : GrpLaws GO}.
Lemma line_zero f os x : (forall e, In e os -> f (snd e) = fzero) -> f (fzero, fzero) = fzero -> line_at f os x = fzero.
Proof.
  intros H H0. unfold line_at.
  assert (E : forall is, fsum (map (fun i => fmul (f (snd (nth i os (0, (fzero, fzero))))) (spec_lagrange x (map (fun e => node_x (fst e)) os) i)) is) = fzero).
  { induction is as [|i is IH]; [reflexivity|]. cbn [map]. rewrite fsum_cons, IH.
    assert (Z0 : f (snd (nth i os (0, (fzero, fzero)))) = fzero).
    { destruct (nth_in_or_default i os (0, (fzero, fzero))) as [I|E]; [apply H, I|]. rewrite E. exact H0. }
    rewrite Z0. ring. }
  apply E.
Qed.
Lemma choose_shares {A} (R : Z -> A -> Fq * Fq -> Prop) : forall hs : list (Z * A), (forall i s, In (i, s) hs -> exists o, R i s o) ->
  exists os : list (Z * (Fq * Fq)), (map fst os = map fst hs) /\ (forall (i : Z) (o : Fq * Fq), In (i, o) os -> exists s, In (i, s) hs /\ R i s o) /\
    forall i s, In (i, s) hs -> exists o, In (i, o) os /\ R i s o.
Proof.
  induction hs as [|[i s] hs IH]; intros H; [exists []; repeat split; contradiction|].
  destruct IH as (os & M & A1 & A2); [intros; apply H; right; assumption|].
  destruct (H i s (or_introl eq_refl)) as [o Ho]. exists ((i, o) :: os). split; [cbn [map fst]; now rewrite M|]. split.
  - intros j p [E|I]; [injection E as <- <-; exists s; split; [left; reflexivity|exact Ho]|].
    destruct (A1 j p I) as (s' & I' & R'). exists s'. split; [right; exact I'|exact R'].
  - intros j s' [E|I]; [injection E as <- <-; exists o; split; [left; reflexivity|exact Ho]|].
    destruct (A2 j s' I) as (p & I' & R'). exists p. split; [right; exact I'|exact R'].
Qed.
Lemma one_line (R : Z -> Fq -> Fq * Fq -> Prop) l th (hs : list (Z * Fq)) : keys_ok hs -> 0 < th <= Z.of_nat (length hs) -> Z.of_nat (length l) = th ->
  (forall i s, In (i, s) hs -> exists o, R i s o /\ pedersen (fst o) (snd o) = spec_geval l (node_x i)) ->
  exists fs, (forall i o, In (i, o) fs -> exists s, In (i, s) hs /\ R i s o) /\ length fs = Z.to_nat th /\
    (forall x, spec_geval l x = pedersen (line_at fst fs x) (line_at snd fs x)).
Proof.
  intros [F N] Hth L H.
  destruct (choose_shares (fun i s o => R i s o /\ pedersen (fst o) (snd o) = spec_geval l (node_x i)) hs H) as (os & M & A1 & _).
  assert (K : keys_ok os) by (split; rewrite M; assumption).
  assert (Lo : length os = length hs) by (rewrite <- (map_length fst os), M, map_length; reflexivity).
  set (fs := firstn (Z.to_nat th) os).
  assert (Lf : length fs = Z.to_nat th) by (unfold fs; rewrite firstn_length; lia).
  exists fs. split; [|split; [exact Lf|]].
  - intros i o I. unfold fs in I. apply firstn_in in I. destruct (A1 i o I) as (s & I' & R' & _). eauto.
  - intros x. rewrite gev_spec. apply line_commits; [apply firstn_keys, K|intros E; rewrite E in Lf; cbn [length] in Lf; lia|lia|].
    intros i a b I. apply firstn_in in I. destruct (A1 i (a, b) I) as (s & _ & _ & E). cbn [fst snd] in E.
    rewrite E, gev_spec, node_x_eq. reflexivity.
Qed.
End Shares.

(** [holders]: receivers with their secret keys.  When at least the threshold of
    them accept, there is one polynomial of that length which the dealing
    commits to and on which the shares of all of them lie; for Pedersen
    commitments unless some share gives the logarithm of H *)
Theorem C111_one_polynomial : forall (X : Oracles) (HX : oracles_ok X) (GO : Grp) (GL : GrpLaws GO) d op threshold dealer receivers ad holders,
  publicly_verify d op threshold dealer receivers ad = Ok tt -> keys_ok holders -> 0 < threshold <= Z.of_nat (length holders) ->
  (forall i sk, In (i, sk) holders -> private_verify d sk (mul_by_g sk) ad dealer i = Ok tt) ->
  exists po mo, Z.of_nat (length po) <= threshold /\ Z.of_nat (length mo) <= threshold /\
    match unwrap (d_cm d) with
    | CSimple l => (forall x, spec_geval l x = smul (spec_eval po x) genG) /\
        forall i sk, In (i, sk) holders -> m_decrypt (d_ct d) ad dealer i sk (mul_by_g sk) = Ok (OSimple (spec_eval po (node_x i)))
    | CPedersen l => (forall x, spec_geval l x = gadd (smul (spec_eval po x) genG) (smul (spec_eval mo x) genH)) /\
        forall i sk, In (i, sk) holders -> exists v m, m_decrypt (d_ct d) ad dealer i sk (mul_by_g sk) = Ok (OPedersen v m) /\
          (v = spec_eval po (node_x i) /\ m = spec_eval mo (node_x i) \/
           log_found v m (spec_eval po (node_x i)) (spec_eval mo (node_x i)))
    | _ => False
    end.
Proof.
  intros X HX GO GL d op th k n ad hs V K Hth A.
  pose proof (publicly_verify_inv _ _ _ _ _ _ V) as (L & Np & _ & _ & Kd).
  assert (U : unwrap (d_cm d) = CSimple (pts_of (d_cm d)) \/ unwrap (d_cm d) = CPedersen (pts_of (d_cm d))).
  { destruct op; try contradiction; [right|left|left|right]; exact (proj1 Kd). }
  clear Kd V. set (l := pts_of (d_cm d)) in *. clearbody l.
  assert (O : forall i s, In (i, s) hs -> exists o, m_decrypt (d_ct d) ad k i s (mul_by_g s) = Ok o /\ opens_at (d_cm d) i o).
  { intros i s I. exact (proj1 (C111_private_exact X GO GL d s (mul_by_g s) ad k i) (A i s I)). }
  unfold opens_at in O. destruct U as [U|U]; rewrite U in O |- *.
  - destruct (one_line (fun i s o => m_decrypt (d_ct d) ad k i s (mul_by_g s) = Ok (OSimple (fst o)) /\ snd o = fzero) l th hs K Hth L) as (fs & R & Lf & E).
    { intros i s I. destruct (O i s I) as (o & D & C). destruct o as [v| | | |]; try contradiction. exists (v, fzero). cbn [fst snd].
      split; [split; [exact D|reflexivity]|]. rewrite <- (proj2 C). unfold pedersen, mul_points. rewrite smul_zero. apply gadd_0_r. }
    destruct (line_poly fst fs) as (po & Lp & Ep). exists po, []. split; [lia|]. split; [cbn [length]; lia|].
    assert (E' : forall x, spec_geval l x = smul (spec_eval po x) genG).
    { intros x. rewrite E, (line_zero snd) by (try reflexivity; intros [i o] I; destruct (R i o I) as (s & _ & _ & Z0); exact Z0).
      rewrite pev_spec, <- Ep. unfold pedersen, mul_points. rewrite smul_zero. apply gadd_0_r. }
    split; [exact E'|]. intros i s I. destruct (O i s I) as (o & D & C). destruct o as [v| | | |]; try contradiction. rewrite D. do 2 f_equal.
    destruct C as [_ C]. rewrite E' in C. apply smul_inj_l in C; [exact C|apply genG_nz].
  - destruct (one_line (fun i s o => m_decrypt (d_ct d) ad k i s (mul_by_g s) = Ok (OPedersen (fst o) (snd o))) l th hs K Hth L) as (fs & R & Lf & E).
    { intros i s I. destruct (O i s I) as (o & D & C). destruct o as [|v m| | |]; try contradiction. exists (v, m). cbn [fst snd].
      split; [exact D|exact (proj2 C)]. }
    destruct (line_poly fst fs) as (po & Lp & Ep). destruct (line_poly snd fs) as (mo & Lm & Em). exists po, mo. split; [lia|]. split; [lia|].
    assert (E' : forall x, spec_geval l x = pedersen (spec_eval po x) (spec_eval mo x)) by (intros x; rewrite E, !pev_spec, Ep, Em; reflexivity).
    split; [exact E'|]. intros i s I. destruct (O i s I) as (o & D & C). destruct o as [|v m| | |]; try contradiction. exists v, m. split; [exact D|].
    destruct C as [_ C]. rewrite E' in C.
    destruct (feqb v (spec_eval po (node_x i)) && feqb m (spec_eval mo (node_x i))) eqn:B.
    + left. apply andb_prop in B. destruct B as [B1 B2]. apply feqb_eq in B1, B2. auto.
    + right. apply pedersen_collision; [exact C|]. intros P. injection P as P1 P2. rewrite <- P1, <- P2 in B.
      rewrite !(proj2 (feqb_eq _ _ _) eq_refl) in B. discriminate B.
Qed.
Print Assumptions C111_private_exact.
Print Assumptions C111_otherwise_rejected.
Print Assumptions C111_opened_exact.
Print Assumptions C111_one_polynomial.

(** honest dealings of a random value meet the hypotheses *)
Definition holders_of (keys : list Fq) : list (Z * Fq) := combine (map Z.of_nat (seq 0 (length keys))) keys.
Lemma holders_in keys i sk : In (i, sk) (holders_of keys) -> exists j, i = Z.of_nat j /\ nth_error keys j = Some sk.
Proof.
  unfold holders_of. intros H. apply (In_nth _ _ (0, fzero)) in H. destruct H as (j & Hj & E).
  rewrite combine_length, map_length, seq_length, Nat.min_id in Hj.
  rewrite combine_nth in E by (rewrite map_length, seq_length; reflexivity).
  pose proof (f_equal fst E) as E1. pose proof (f_equal snd E) as E2. cbn [fst snd] in E1, E2.
  exists j. split.
  - rewrite <- E1. rewrite (nth_indep _ 0 (Z.of_nat 0)) by (rewrite map_length, seq_length; exact Hj).
    rewrite map_nth, seq_nth by exact Hj. reflexivity.
  - rewrite <- E2. apply nth_error_nth'. exact Hj.
Qed.
Lemma honest_accepts (X : Oracles) (HX : oracles_ok X) (GO : Grp) (GL : GrpLaws GO) seed th keys k ad n :
  is_ok (new_dealing SRandom seed th (map mul_by_g keys) k ad) = true -> Z.of_nat (length keys) = n ->
  exists d, publicly_verify d TRandom th k n ad = Ok tt /\
    forall i sk, In (i, sk) (holders_of keys) -> private_verify d sk (mul_by_g sk) ad k i = Ok tt.
Proof.
  intros B <-. destruct (new_dealing SRandom seed th (map mul_by_g keys) k ad) as [d| | |] eqn:E; try discriminate B. exists d. split.
  - rewrite <- (map_length mul_by_g keys). exact (C37_honest_public X HX GO GL SRandom TRandom _ _ _ _ _ d E I).
  - intros i sk H. destruct (holders_in _ _ _ H) as (j & -> & Hj).
    apply (C37_honest_private X HX GO GL SRandom _ _ _ _ _ d ltac:(discriminate) E). rewrite nth_error_map, Hj. reflexivity.
Qed.
From Verif Require Import ToyShort.
#[local] Existing Instance shortX.
(** test values: three receivers and a threshold of two *)
Definition c111_keys : list Fq := [of_Z q 21; of_Z q 22; of_Z q 23].
Example C111_ex : keys_ok (holders_of c111_keys) /\ 0 < 2 <= Z.of_nat (length (holders_of c111_keys)) /\
  exists d, publicly_verify d TRandom 2 4 3 (str "ad") = Ok tt /\
    forall i sk, In (i, sk) (holders_of c111_keys) -> private_verify d sk (mul_by_g sk) (str "ad") 4 i = Ok tt.
Proof.
  split; [|split].
  - split; [repeat (constructor; [unfold int64_ok; cbn; lia|]); constructor|repeat (constructor; [intros C; cbn in C; lia|]); constructor].
  - cbn. lia.
  - apply (honest_accepts shortX shortX_ok toyG toyL [1]); [vm_compute|]; reflexivity.
Qed.
(** with the last ciphertext replaced by a copy of the second the dealing still
    verifies publicly, and its last receiver alone rejects it *)
Definition c111_broken (d : dealing) : dealing :=
  match d_ct d with
  | MPair e p pf [c0; c1; _] => mkdealing (MPair e p pf [c0; c1; c1]) (d_cm d) (d_proof d)
  | _ => d
  end.
Example C111_ex_broken : match new_dealing SRandom [1] 2 (map mul_by_g c111_keys) 4 (str "ad") with
  | Ok d => is_ok (publicly_verify (c111_broken d) TRandom 2 4 3 (str "ad"))
      && forallb (fun h => Bool.eqb (is_ok (private_verify (c111_broken d) (snd h) (mul_by_g (snd h)) (str "ad") 4 (fst h))) (fst h <? 2)) (holders_of c111_keys)
  | _ => false end = true.
Proof. vm_compute. reflexivity. Qed.
