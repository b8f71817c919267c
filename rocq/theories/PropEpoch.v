(** Properties C81 and C82: resharing from epoch to epoch. *)
From Coq Require Import ZArith Lia Bool String List Ring Field.
From Verif Require Import Base BaseFacts Zmod Fields ModelScalar ProofScalar ModelXmd ModelRo SpecPoly ModelPoly ProofPoly
  ProofLagrange ProofSecrecy ModelGroup GroupFacts SpecGroup ModelCommit ProofCommit ModelZk ProofZk ModelMega
  ModelDealing SpecDealing ProofDealing ProofTranscript ModelKey ModelSign ProofSign PropPoly PropHiding PropMalicious SpecEpoch ExLagrange Toy.
Import ListNotations.
Open Scope Z_scope.

Section Chain.
Context {X : Oracles} {GO : Grp} {GL : GrpLaws GO}.

Lemma later_constant t t' : later t t' -> tr_constant_term t' = tr_constant_term t.
Proof.
  intros H. induction H as [t|t t' t'' th ds E _ IH]; [reflexivity|]. rewrite IH.
  apply unmasked_constant in E. destruct E as (P & E1 & E2). rewrite E2. symmetry. exact E1.
Qed.
Lemma unmasked_form th ds p t : new_transcript th ds (TReshareUnmasked p) = Ok t -> exists l, tr_commitment t = CInterp (CSimple l).
Proof.
  intros H. unfold new_transcript in H. apply bind_inv in H. destruct H as ([] & _ & H).
  apply bind_inv in H. destruct H as (ty & _ & H). destruct (ty =? ct_simple); cbn [negb] in H; [|discriminate].
  apply bind_inv in H. destruct H as (n & _ & H). destruct (_ <? n); [discriminate|].
  apply bind_inv in H. destruct H as (c & E & H). apply bind_inv in H. destruct H as (a & Ea & H). apply bind_inv in H. destruct H as (b & Eb & H).
  destruct (geqb a b); [|discriminate]. injection H as <-. cbn [tr_commitment].
  unfold combine_interp in E. apply bind_inv in E. destruct E as (cs & _ & E). apply bind_inv in E. destruct E as (l & _ & E).
  apply bind_inv in E. destruct E as (n' & _ & E). apply bind_inv in E. destruct E as (pts & _ & E). change (ct_simple =? ct_simple) with true in E.
  injection E as <-. exists pts. reflexivity.
Qed.
Lemma later_form t t' : later t t' -> t' = t \/ exists l, tr_commitment t' = CInterp (CSimple l).
Proof.
  intros H. induction H as [t|t t' t'' th ds E _ IH]; [left; reflexivity|]. right. destruct IH as [->|IH]; [|exact IH].
  exact (unmasked_form _ _ _ _ E).
Qed.
Lemma later_presig t t' P : later t t' -> presig_point t = Ok P -> presig_point t' = Ok P.
Proof.
  intros H E. pose proof (later_constant t t' H) as C. destruct (later_form t t' H) as [->|[l F]]; [exact E|].
  unfold presig_point, tr_constant_term in *. rewrite F in *. change (c_type (CSimple l)) with (Ok ct_simple). rewrite bind_Ok. change (ct_simple =? ct_simple) with true.
  cbv iota. destruct (tr_commitment t) as [?|?|?|c|]; try discriminate. apply bind_inv in E. destruct E as (ty & _ & E).
  destruct (ty =? ct_simple); [|discriminate]. destruct c; try discriminate. rewrite <- E. exact C.
Qed.
Lemma later_rho key key' presig presig' P pa h rnd : later key key' -> later presig presig' -> presig_point presig = Ok P ->
  derive_rho h rnd pa key' presig' = derive_rho h rnd pa key presig.
Proof.
  intros K L E. unfold derive_rho. rewrite E, (later_presig _ _ _ L E), (later_constant _ _ K). reflexivity.
Qed.

Lemma cons_eq {A} (x y : A) l k : x :: l = y :: k -> x = y /\ l = k.
Proof. intros E. injection E. auto. Qed.
(** ** scalar polynomials *)
Lemma add_poly_add a b : length a = length b -> add_poly a b = poly_add a b.
Proof.
  intros L. apply (nth_ext _ _ fzero fzero).
  - unfold add_poly. rewrite map_length, combine_length, poly_add_length. lia.
  - intros n Hn. unfold add_poly in Hn. rewrite map_length, combine_length in Hn. rewrite poly_add_nth. unfold add_poly.
    rewrite (nth_indep _ fzero (fadd (fst ((fzero, fzero) : Fq * Fq)) (snd ((fzero, fzero) : Fq * Fq)))) by (rewrite map_length, combine_length; lia).
    rewrite (map_nth (fun xy : Fq * Fq => fadd (fst xy) (snd xy))), combine_nth by exact L. reflexivity.
Qed.
Lemma add_poly_eval a b x : length a = length b -> spec_eval (add_poly a b) x = fadd (spec_eval a x) (spec_eval b x).
Proof. intros L. rewrite add_poly_add by exact L. apply spec_eval_add. Qed.
Lemma add_poly_length a b : length a = length b -> length (add_poly a b) = length a.
Proof. intros L. unfold add_poly. rewrite map_length, combine_length. lia. Qed.
Lemma add_poly_zero a n : length a = n -> add_poly a (repeat fzero n) = a.
Proof.
  intros <-. unfold add_poly. induction a as [|c a IH]; [reflexivity|]. cbn [length repeat combine map fst snd]. rewrite IH. f_equal. ring.
Qed.
Lemma eval_repeat0 n x : spec_eval (repeat fzero n) x = fzero.
Proof. rewrite pev_spec. apply pev_repeat0. Qed.

Lemma combines_exists ks ds t : (forall j, (j < length ks)%nat -> length (nth j ds []) = t) ->
  exists po, length po = t /\ combines ks ds po.
Proof.
  intros H. set (f := fun x => fsum (map (fun j => fmul (spec_lagrange fzero (map node_x ks) j) (spec_eval (nth j ds []) x)) (seq 0 (length ks)))).
  assert (isp t f) as (l & Hl & Hf).
  { apply (isp_sum _ (fun j v => fmul (spec_lagrange fzero (map node_x ks) j) (spec_eval (nth j ds []) v))).
    intros j Hj. apply in_seq in Hj. apply isp_scale. apply (isp_ext _ (pev (nth j ds []))); [intros v; symmetry; apply pev_spec|].
    apply isp_pev. rewrite H by lia. lia. }
  exists (l ++ repeat fzero (t - length l)). split; [rewrite app_length, repeat_length; lia|].
  intros x. fold (f x). rewrite pev_spec, pev_app, pev_repeat0, Hf. ring.
Qed.
Lemma combine_nth2 {A B} (a : list A) (b : list B) j da db : length a = length b -> nth j (combine a b) (da, db) = (nth j a da, nth j b db).
Proof. apply combine_nth. Qed.
Lemma add_dealt_nth ds es j : length ds = length es -> (j < length ds)%nat ->
  nth j (map (fun xy : list Fq * list Fq => add_poly (fst xy) (snd xy)) (combine ds es)) [] = add_poly (nth j ds []) (nth j es []).
Proof.
  intros L H. rewrite (nth_indep _ [] (add_poly (fst (([], []) : list Fq * list Fq)) (snd (([], []) : list Fq * list Fq)))) by (rewrite map_length, combine_length; lia).
  rewrite (map_nth (fun xy : list Fq * list Fq => add_poly (fst xy) (snd xy))), combine_nth by exact L. reflexivity.
Qed.
Lemma mem_b_in i l : mem_b i l = true <-> In i l.
Proof.
  unfold mem_b. rewrite existsb_exists. split; [intros (x & H & E); apply Z.eqb_eq in E; congruence|intros H; exists i; split; [exact H|apply Z.eqb_refl]].
Qed.

Lemma fsum_map_add {A} (f g : A -> Fq) l : fsum (map (fun a => fadd (f a) (g a)) l) = fadd (fsum (map f l)) (fsum (map g l)).
Proof. induction l as [|a l IH]; cbn [map]; [change (fsum []) with (@fzero q); ring|]. rewrite !fsum_cons, IH. ring. Qed.
(** the polynomials added in one resharing *)
Lemma round_shift bad d r : (forall i, In i bad -> spec_eval d (node_x i) = fzero) -> coalition (rd_t r) (rd_bad r) ->
  exists es d', length es = length (rd_dealers r) /\
    (forall j, (j < length (rd_dealers r))%nat -> length (nth j es []) = rd_t r /\
       spec_eval (nth j es []) fzero = spec_eval d (node_x (nth j (rd_dealers r) 0)) /\
       (In (nth j (rd_dealers r) 0) bad -> nth j es [] = repeat fzero (rd_t r)) /\
       (forall i, In i (rd_bad r) -> spec_eval (nth j es []) (node_x i) = fzero)) /\
    length d' = rd_t r /\ combines (rd_dealers r) es d' /\ (forall i, In i (rd_bad r) -> spec_eval d' (node_x i) = fzero).
Proof.
  intros Zd Hc. destruct (nodes_ok (rd_t r) (rd_bad r) Hc) as [Nd Nz].
  assert (A : exists es, length es = length (rd_dealers r) /\
    (forall j, (j < length (rd_dealers r))%nat -> length (nth j es []) = rd_t r /\
       spec_eval (nth j es []) fzero = spec_eval d (node_x (nth j (rd_dealers r) 0)) /\
       (In (nth j (rd_dealers r) 0) bad -> nth j es [] = repeat fzero (rd_t r)) /\
       (forall i, In i (rd_bad r) -> spec_eval (nth j es []) (node_x i) = fzero))).
  { generalize (rd_dealers r). intros ks. induction ks as [|k ks (es & L & IH)]; [exists []; split; [reflexivity|]; intros j Hj; cbn in Hj; lia|].
    assert (B : exists e, length e = rd_t r /\ spec_eval e fzero = spec_eval d (node_x k) /\ (In k bad -> e = repeat fzero (rd_t r)) /\
      (forall i, In i (rd_bad r) -> spec_eval e (node_x i) = fzero)).
    { destruct (mem_b k bad) eqn:M.
      - apply mem_b_in in M. exists (repeat fzero (rd_t r)). rewrite repeat_length, eval_repeat0, (Zd k M). repeat split. intros i _. apply eval_repeat0.
      - destruct (sharing_exists (rd_t r) (spec_eval d (node_x k)) (map (fun i => (node_x i, fzero)) (rd_bad r))) as (e & Le & Se & Pe);
          [rewrite map_map; exact Nd|rewrite map_map; exact Nz|rewrite map_length; apply Hc|].
        exists e. split; [exact Le|]. split; [exact Se|]. split; [intros Q; apply mem_b_in in Q; congruence|].
        intros i Hi. apply (Pe (node_x i, fzero)). apply in_map_iff. exists i. auto. }
    destruct B as (e & B). exists (e :: es). split; [cbn [length]; congruence|]. intros [|j] Hj; cbn [nth]; [exact B|]. apply IH. cbn [length] in Hj. lia. }
  destruct A as (es & L & A). destruct (combines_exists (rd_dealers r) es (rd_t r)) as (d' & Ld & Cd); [intros j Hj; apply A, Hj|].
  exists es, d'. split; [exact L|]. split; [exact A|]. split; [exact Ld|]. split; [exact Cd|].
  intros i Hi. rewrite (Cd (node_x i)).
  rewrite (fsum_map_ext _ (fun _ => fmul fzero fzero)).
  - generalize (seq 0 (length (rd_dealers r))). intros s. induction s as [|a s IH]; [reflexivity|]. cbn [map]. rewrite fsum_cons, IH. ring.
  - intros j Hj. apply in_seq in Hj. destruct (A j ltac:(lia)) as (_ & _ & _ & Z). rewrite (Z i Hi). ring.
Qed.

Lemma run_ok_shaped rs : forall bad po tr, run_ok bad po rs tr -> shaped rs tr.
Proof.
  induction rs as [|r rs IH]; intros bad po [|d tr] H; try exact H. cbn [run_ok] in H. destruct H as [(A & B & C & _) H]. cbn [shaped].
  split; [exact A|]. split; [intros j Hj; apply B, Hj|]. split; [exact C|]. eapply IH, H.
Qed.
Lemma add_poly_inj : forall a b c, length a = length c -> length b = length c -> add_poly a c = add_poly b c -> a = b.
Proof.
  induction a as [|x a IH]; intros [|y b] [|z c] La Lb E; cbn [length] in La, Lb; try lia; [reflexivity|].
  unfold add_poly in E. cbn [combine map fst snd] in E. apply cons_eq in E. destruct E as [E1 E2]. f_equal.
  - assert (Q : x = fsub (fadd x z) z) by ring. rewrite Q, E1. ring.
  - apply (IH b c); [lia|lia|exact E2].
Qed.
Lemma add_dealt_inj n t a b c : length a = n -> length b = n -> length c = n ->
  (forall j, (j < n)%nat -> length (nth j a []) = t /\ length (nth j b []) = t /\ length (nth j c []) = t) ->
  map (fun xy : list Fq * list Fq => add_poly (fst xy) (snd xy)) (combine a c) =
  map (fun xy : list Fq * list Fq => add_poly (fst xy) (snd xy)) (combine b c) -> a = b.
Proof.
  intros La Lb Lc H E. apply (nth_ext a b [] []); [congruence|]. intros j Hj. rewrite La in Hj. destruct (H j Hj) as (H1 & H2 & H3).
  apply (f_equal (fun l => nth j l [])) in E. rewrite !add_dealt_nth in E by lia. apply (add_poly_inj _ _ (nth j c [])); [congruence|congruence|exact E].
Qed.
Lemma add_run_inj rs : forall a b c, shaped rs a -> shaped rs b -> shaped rs c -> add_run a c = add_run b c -> a = b.
Proof.
  induction rs as [|r rs IH]; intros [|[a1 a2] a] [|[b1 b2] b] [|[c1 c2] c] Sa Sb Sc E; try destruct Sa; try destruct Sb; try destruct Sc; [reflexivity|].
  cbn [fst snd] in *. change (add_run ((?x, ?y) :: a) ((c1, c2) :: c)) with (add_dealt (x, y) (c1, c2) :: add_run a c) in E.
  unfold add_run in E. cbn [combine map fst snd] in E. fold (add_run a c) (add_run b c) in E. apply cons_eq in E. destruct E as [E1 E2].
  unfold add_dealt in E1. cbn [fst snd] in E1. apply pair_equal_spec in E1. destruct E1 as [E1 E3].
  destruct H0 as (A1 & A2 & A3). destruct H2 as (B1 & B2 & B3). destruct H4 as (C1 & C2 & C3).
  f_equal; [|apply (IH _ _ c); assumption]. f_equal.
  - apply (add_dealt_inj (length (rd_dealers r)) (rd_t r) a1 b1 c1); auto.
  - apply (add_poly_inj _ _ c2); congruence.
Qed.
Lemma run_shift rs : Forall (fun r => coalition (rd_t r) (rd_bad r)) rs -> forall t bad d, length d = t -> (forall i, In i bad -> spec_eval d (node_x i) = fzero) ->
  exists td, shaped rs td /\ forall po tr, length po = t -> run_ok bad po rs tr ->
    run_ok bad (add_poly po d) rs (add_run tr td) /\ seen bad (add_poly po d) rs (add_run tr td) = seen bad po rs tr.
Proof.
  induction rs as [|r rs IH]; intros W t bad d Ld Zd.
  - exists []. split; [exact I|]. intros po tr Lp R. destruct tr as [|x tr]; [|destruct R]. split; [exact I|]. cbn [seen add_run combine map]. do 2 f_equal. f_equal.
    apply map_ext_in. intros i Hi. unfold share. rewrite add_poly_eval by congruence. rewrite (Zd i Hi). ring.
  - inversion W as [|? ? Wr Ws]; subst. destruct (round_shift bad d r Zd Wr) as (es & d' & Le & A & Ld' & Cd & Zd').
    destruct (IH Ws (rd_t r) (rd_bad r) d' Ld' Zd') as (td & Sd & T). exists ((es, d') :: td).
    split; [cbn [shaped fst snd]; split; [exact Le|]; split; [intros j Hj; apply A, Hj|]; split; [exact Ld'|exact Sd]|]. intros po tr Lp R.
    destruct tr as [|[ds po'] tr]; [destruct R|]. destruct R as [(L1 & L2 & L3 & L4) R]. cbn [fst snd] in *.
    destruct (T po' tr L3 R) as [T1 T2]. change (add_run ((ds, po') :: tr) ((es, d') :: td)) with (add_dealt (ds, po') (es, d') :: add_run tr td).
    assert (Eq : forall j, (j < length (rd_dealers r))%nat -> nth j (fst (add_dealt (ds, po') (es, d'))) [] = add_poly (nth j ds []) (nth j es [])).
    { intros j Hj. unfold add_dealt. cbn [fst snd]. apply add_dealt_nth; [congruence|]. rewrite L1. exact Hj. }
    assert (Lj : forall j, (j < length (rd_dealers r))%nat -> length (nth j ds []) = length (nth j es [])).
    { intros j Hj. destruct (L2 j Hj) as [-> _]. destruct (A j Hj) as [-> _]. reflexivity. }
    split.
    + cbn [run_ok]. split; [|exact T1]. split; [|split; [|split]].
      * unfold add_dealt. cbn [fst]. rewrite map_length, combine_length. lia.
      * intros j Hj. rewrite (Eq j Hj). split; [rewrite add_poly_length by (apply Lj, Hj); apply L2, Hj|].
        intros Nb. rewrite !add_poly_eval by (try (apply Lj, Hj); congruence). destruct (L2 j Hj) as [_ ->]; [|exact Nb]. destruct (A j Hj) as (_ & -> & _). reflexivity.
      * unfold add_dealt. cbn [snd]. rewrite add_poly_length by congruence. exact L3.
      * intros x. unfold add_dealt at 1. cbn [snd]. rewrite add_poly_eval by congruence. rewrite (L4 x), (Cd x).
        rewrite <- fsum_map_add. apply fsum_map_ext. intros j Hj. apply in_seq in Hj. rewrite Eq by lia. rewrite add_poly_eval by (apply Lj; lia). ring.
    + cbn [seen]. f_equal; [|exact T2]. f_equal; [f_equal|].
      * apply map_ext_in. intros i Hi. unfold share. rewrite add_poly_eval by congruence. rewrite (Zd i Hi). ring.
      * apply map_ext_in. intros j Hj. apply in_seq in Hj. destruct (mem_b _ bad) eqn:M; [|reflexivity]. apply mem_b_in in M. rewrite Eq by lia.
        destruct (A j ltac:(lia)) as (_ & _ & B & _). rewrite (B M). apply add_poly_zero. apply L2. lia.
      * apply map_ext_in. intros j Hj. apply in_seq in Hj. apply map_ext_in. intros i Hi. unfold share. rewrite Eq by lia.
        rewrite add_poly_eval by (apply Lj; lia). destruct (A j ltac:(lia)) as (_ & _ & _ & B). rewrite (B i Hi). cbn [fst]. ring.
Qed.
End Chain.

(** C81 *)
Theorem C81_public_key_stays : forall (X : Oracles) (GO : Grp) (GL : GrpLaws GO) t t',
  later t t' -> tr_constant_term t' = tr_constant_term t.
Proof. intros X GO GL. exact later_constant. Qed.
(** in every epoch as many shares as the commitment has points give the secret of the first epoch *)
Theorem C81_shares_give_same_secret : forall (X : Oracles) (GO : Grp) (GL : GrpLaws GO) t t' s l (os : list (Z * Fq)),
  later t t' -> tr_constant_term t = Ok (mul_by_g s) -> unwrap (tr_commitment t') = CSimple l ->
  keys_ok os -> os <> [] -> (length l <= length os)%nat ->
  (forall k v, In (k, v) os -> c_check_opening (tr_commitment t') k (OSimple v) = Ok true) ->
  exists cs, lagrange_at_zero (map fst os) = Ok cs /\ interpolate_scalar cs (map snd os) = Ok s.
Proof.
  intros X GO GL t t' s l os H E U [F N] Ne L O. rewrite <- (later_constant t t' H) in E.
  destruct (lagrange_ok fzero (map fst os) F N) as (cs & Ec & Lc & Nc); [destruct os; [congruence|discriminate]|].
  exists cs. split; [exact Ec|]. rewrite interpolate_scalar_wsum by (rewrite ?map_length in *; auto). f_equal.
  assert (A : forall kv, In kv os -> l <> [] /\ gev l (from_node_index (fst kv)) = mul_by_g (snd kv)).
  { intros [k v] Hin. destruct (check_true_simple _ _ _ _ U (O k v Hin)) as (_ & A & B). split; [exact A|exact B]. }
  assert (Nl : l <> []) by (destruct os as [|kv os']; [congruence|apply (A kv); left; reflexivity]).
  pose proof (lagrange_wsum fzero (map fst os) (gev l) cs F N Ec (gisp_gev l (length (map fst os)) ltac:(rewrite map_length; exact L))) as W.
  rewrite map_map, (map_ext_in _ (fun kv => smul (snd kv) genG)) in W by (intros kv Hin; apply (A kv Hin)).
  rewrite wsum_scal, gev_0 in W. unfold tr_constant_term, c_constant_term, c_points in E. rewrite U, bind_Ok in E.
  destruct l as [|P l]; [congruence|]. cbn [nth] in W. apply Ok_inj in E. rewrite E in W. apply (smul_inj_l _ _ genG genG_nz). exact W.
Qed.
(** keys and presignatures may be reshared at any time: the same messages are
    signed to the same signatures, and the same signatures accepted *)
Theorem C81_signatures_stay : forall (X : Oracles) (GO : Grp) (GL : GrpLaws GO) key key' presig presig' P pa hashed randomness,
  later key key' -> later presig presig' -> presig_point presig = Ok P ->
  (forall sg, sig_verify sg pa hashed randomness key' presig' = sig_verify sg pa hashed randomness key presig) /\
  (forall threshold shares, combine_sig pa hashed randomness key' presig' threshold shares = combine_sig pa hashed randomness key presig threshold shares) /\
  (forall lambda kappa_lambda key_lambda,
     new_share pa hashed randomness key' presig' lambda kappa_lambda key_lambda = new_share pa hashed randomness key presig lambda kappa_lambda key_lambda).
Proof.
  intros X GO GL key key' presig presig' P pa h rnd K L E. pose proof (later_rho _ _ _ _ _ pa h rnd K L E) as R. split; [|split].
  - intros sg. unfold sig_verify. rewrite R, (later_constant _ _ K). reflexivity.
  - intros th sh. unfold combine_sig. rewrite R. reflexivity.
  - intros a b c. unfold new_share. rewrite R. reflexivity.
Qed.
Print Assumptions C81_public_key_stays.
Print Assumptions C81_shares_give_same_secret.
Print Assumptions C81_signatures_stay.

(** C82: whatever the corrupted nodes see over any number of epochs, fewer of
    them in each epoch than its threshold, is seen for every secret, and from as
    many runs: adding fixed polynomials to a run for [s] gives a run for [s']
    that looks the same, and different runs remain different *)
Theorem C82_mobile_adversary_learns_nothing : forall t bad rs s s',
  coalition t bad -> Forall (fun r => coalition (rd_t r) (rd_bad r)) rs ->
  exists d td, length d = t /\ shaped rs td /\
    (forall po tr, length po = t -> spec_eval po fzero = s -> run_ok bad po rs tr ->
       spec_eval (add_poly po d) fzero = s' /\ run_ok bad (add_poly po d) rs (add_run tr td) /\
       seen bad (add_poly po d) rs (add_run tr td) = seen bad po rs tr) /\
    (forall po tr po2 tr2, length po = t -> length po2 = t -> run_ok bad po rs tr -> run_ok bad po2 rs tr2 ->
       add_poly po d = add_poly po2 d -> add_run tr td = add_run tr2 td -> po = po2 /\ tr = tr2).
Proof.
  intros t bad rs s s' Hc W. destruct (nodes_ok t bad Hc) as [Nd Nz].
  destruct (sharing_exists t (fsub s' s) (map (fun i => (node_x i, fzero)) bad)) as (d & Ld & Sd & Pd);
    [rewrite map_map; exact Nd|rewrite map_map; exact Nz|rewrite map_length; apply Hc|].
  assert (Zd : forall i, In i bad -> spec_eval d (node_x i) = fzero).
  { intros i Hi. apply (Pd (node_x i, fzero)). apply in_map_iff. exists i. auto. }
  destruct (run_shift rs W t bad d Ld Zd) as (td & S & T). exists d, td. split; [exact Ld|]. split; [exact S|]. split.
  - intros po tr Lp Hs R. split; [rewrite add_poly_eval, Hs, Sd by congruence; ring|]. apply T; assumption.
  - intros po tr po2 tr2 L1 L2 R1 R2 E1 E2. split; [apply (add_poly_inj _ _ d); congruence|].
    apply (add_run_inj rs _ _ td); [eapply run_ok_shaped, R1|eapply run_ok_shaped, R2|exact S|exact E2].
Qed.
(** a resharing in which nobody deviates, with enough dealers, keeps the secret *)
Theorem C82_round_keeps_secret : forall po r d, round_ok [] po r d -> Forall int64_ok (rd_dealers r) -> NoDup (rd_dealers r) ->
  (length po <= length (rd_dealers r))%nat -> spec_eval (snd d) fzero = spec_eval po fzero.
Proof.
  intros po r d (L1 & L2 & L3 & L4) F N L. rewrite (L4 fzero).
  assert (E : map node_x (rd_dealers r) = map from_node_index (rd_dealers r)) by (apply map_ext; intros; symmetry; apply node_x_eq).
  rewrite E. pose proof (lagrange_sum (map from_node_index (rd_dealers r)) (spec_eval po) (nodes_nodup _ F N)) as S.
  rewrite map_length in S. rewrite <- S.
  - apply fsum_map_ext. intros j Hj. apply in_seq in Hj. destruct (L2 j ltac:(lia)) as [_ ->]; [|intros []].
    rewrite (nth_indep _ fzero (from_node_index 0)) by (rewrite map_length; lia). rewrite map_nth, node_x_eq. ring.
  - apply (isp_ext _ (pev po)); [intros v; symmetry; apply pev_spec|]. apply isp_pev. exact L.
Qed.
(** the code's resharing is such a step: the new transcript commits to the
    combination of the dealt polynomials, and what a receiver puts together is
    their share of it *)
Theorem C82_code_combines : forall (X : Oracles) (GO : Grp) (GL : GrpLaws GO) threshold ds p t polys,
  keys_ok ds -> 0 < threshold -> new_transcript threshold ds (TReshareUnmasked p) = Ok t -> length polys = length ds ->
  (forall j, (j < length ds)%nat -> length (nth j polys []) = Z.to_nat threshold /\
     forall d, nth_error (map snd ds) j = Some d -> commits (pts_of (d_cm d)) (nth j polys [])) ->
  exists po' l, length po' = Z.to_nat threshold /\ combines (map fst ds) polys po' /\
    tr_commitment t = CInterp (CSimple l) /\ (forall x, spec_geval l x = smul (spec_eval po' x) genG) /\
    (forall ad i sk pk o, from_dealings ds (tr_commitment t) ad i sk pk = Ok o -> o = OSimple (share po' i)).
Proof.
  intros X GO GL th ds p t polys K Hth T Lp H.
  destruct (combines_exists (map fst ds) polys (Z.to_nat th)) as (po' & L & C); [intros j Hj; apply H; rewrite map_length in Hj; exact Hj|].
  apply new_transcript_shape in T; [|exact K|lia|discriminate]. destruct T as (l & Ll & Et & (cs & Ec & Lc & Nc & W)).
  exists po', l. split; [exact L|]. split; [exact C|]. split; [exact Et|].
  assert (Ev : forall x, gev l x = smul (spec_eval po' x) genG).
  { intros x. rewrite W. destruct K as [F N].
    assert (Ne : map fst ds <> []) by (destruct ds; [destruct cs; [congruence|discriminate]|discriminate]).
    pose proof (lagrange_value_spec fzero (map fst ds) F N Ne) as E. unfold lagrange_at_zero in Ec. rewrite Ec in E. apply Ok_inj in E.
    assert (Ep : map (fun kd => gev (dl_pts kd) x) ds = map (fun po => smul (pev po x) genG) polys).
    { apply (nth_ext _ _ gzero gzero); [rewrite !map_length; congruence|]. intros j Hj. rewrite map_length in Hj.
      destruct (nth_error ds j) as [kd|] eqn:Ej; [|apply nth_error_None in Ej; lia].
      rewrite (nth_error_nth _ _ _ (map_nth_error (fun kd => gev (dl_pts kd) x) j ds Ej)).
      rewrite (nth_indep _ gzero (smul (pev [] x) genG)) by (rewrite map_length; lia). rewrite (map_nth (fun po => smul (pev po x) genG)).
      destruct (H j Hj) as [_ Hc]. apply commits_gev. apply (Hc (snd kd)). exact (map_nth_error snd j ds Ej). }
    rewrite Ep, wsum_scal. f_equal. rewrite (C x), E, map_length.
    assert (En : map from_node_index (map fst ds) = map node_x (map fst ds)) by (apply map_ext; intros; apply node_x_eq). rewrite En.
    generalize (spec_lagrange fzero (map node_x (map fst ds))). intros f. rewrite <- Lp. clear. revert f.
    induction polys as [|po polys IH]; intros f; [reflexivity|]. cbn [length seq map fwsum]. rewrite <- seq_shift, !map_map. rewrite fsum_cons. cbn [nth].
    rewrite <- (IH (fun j => f (S j))), pev_spec. reflexivity. }
  split; [intros x; rewrite gev_spec; apply Ev|]. intros ad i sk pk o Ho. apply from_dealings_sound in Ho.
  assert (U : unwrap (tr_commitment t) = CSimple l) by (rewrite Et; reflexivity).
  destruct (check_true_simple _ _ _ _ U Ho) as (Eo & _ & Eg). rewrite Ev in Eg. apply (smul_inj_l _ _ genG genG_nz) in Eg.
  rewrite Eo. f_equal. unfold share. rewrite <- node_x_eq. symmetry. exact Eg.
Qed.
Print Assumptions C82_mobile_adversary_learns_nothing.
Print Assumptions C82_round_keeps_secret.
Print Assumptions C82_code_combines.

(** the secret 5 on the line 5 + x; nodes 0 and 1 reshare it to the line 5 - 3x,
    and nodes 0 and 2 that to a parabola *)
Definition ex_t0 : @transcript toyG := mktranscript (CInterp (CSimple [mul_by_g (of_Z q 5); mul_by_g fone])).
Definition ex_deal (po : list Z) : @dealing toyG := mkdealing MNil (CSimple (map (fun c => mul_by_g (of_Z q c)) po)) PNone.
Definition ex_ds1 : list (Z * @dealing toyG) := [(0, ex_deal [6; 3]); (1, ex_deal [7; 9])].
Definition ex_ds2 : list (Z * @dealing toyG) := [(0, ex_deal [2; 1; 1]); (2, ex_deal [-4; 1; 8])].
Definition ex_share (i : Z) : Fq := spec_eval [of_Z q 5; fone; fmul (of_Z q (-5)) ex_half] (node_x i).
Example C81_ex : exists t1 t2, new_transcript 2 ex_ds1 (TReshareUnmasked (tr_commitment ex_t0)) = Ok t1 /\
  new_transcript 3 ex_ds2 (TReshareUnmasked (tr_commitment t1)) = Ok t2 /\ later ex_t0 t2 /\
  tr_constant_term ex_t0 = Ok (mul_by_g (of_Z q 5)) /\ presig_point ex_t0 = Ok (mul_by_g (of_Z q 5)) /\
  (exists l, unwrap (tr_commitment t2) = CSimple l /\ length l = 3%nat) /\
  (forall i, In i [0; 1; 2; 3] -> c_check_opening (tr_commitment t2) i (OSimple (ex_share i)) = Ok true).
Proof.
  destruct (okb_ex (fun t1 => match new_transcript 3 ex_ds2 (TReshareUnmasked (tr_commitment t1)) with
    | Ok t2 => match unwrap (tr_commitment t2) with CSimple l => Nat.eqb (length l) 3 | _ => false end &&
        forallb (fun i => match c_check_opening (tr_commitment t2) i (OSimple (ex_share i)) with Ok b => b | _ => false end) [0; 1; 2; 3]
    | _ => false end) (new_transcript 2 ex_ds1 (TReshareUnmasked (tr_commitment ex_t0)))) as (t1 & E1 & B).
  { unfold new_transcript, combine_interp. change (map fst ex_ds1) with [0; 1]. change (map fst ex_ds2) with [0; 2].
    rewrite ex_lagrange_01, ex_lagrange_02. vm_compute. reflexivity. }
  destruct (new_transcript 3 ex_ds2 (TReshareUnmasked (tr_commitment t1))) as [t2| | |] eqn:E2; [|discriminate B..].
  apply andb_prop in B. destruct B as [B1 B2]. exists t1, t2. split; [exact E1|]. split; [exact E2|].
  split; [exact (later_next _ _ _ _ _ E1 (later_next _ _ _ _ _ E2 (later_now _)))|]. split; [reflexivity|]. split; [reflexivity|]. split.
  - destruct (unwrap (tr_commitment t2)) as [l|?|?|?|]; try discriminate B1. exists l. split; [reflexivity|]. apply Nat.eqb_eq, B1.
  - intros i Hi. rewrite forallb_forall in B2. specialize (B2 i Hi). destruct (c_check_opening (tr_commitment t2) i _) as [[]| | |]; try discriminate B2. reflexivity.
Qed.
(** three epochs with thresholds 2, 3 and 2; node 0 is corrupted first, then
    nodes 1 and 2, then node 0 again *)
Definition ex_rounds : list round := [mkround [0; 1; 2] 3 [1; 2]; mkround [0; 1; 2; 3] 2 [0]].
Definition ex_zero (n : nat) : list Fq := repeat fzero n.
Example C82_ex : coalition 2 [0] /\ Forall (fun r => coalition (rd_t r) (rd_bad r)) ex_rounds /\
  exists po tr, length po = 2%nat /\ spec_eval po fzero <> fzero /\ run_ok [0] po ex_rounds tr.
Proof.
  assert (C : coalition 2 [0]) by (split; [repeat constructor; lia|]; split; [repeat constructor; cbn [In]; lia|cbn; lia]).
  assert (W : Forall (fun r => coalition (rd_t r) (rd_bad r)) ex_rounds).
  { repeat constructor; cbn [rd_bad rd_t In length]; lia. }
  split; [exact C|]. split; [exact W|].
  destruct (C82_mobile_adversary_learns_nothing 2 [0] ex_rounds fzero fone C W) as (d & td & Ld & Sd & H & _).
  set (z := [(repeat (ex_zero 3) 3, ex_zero 3); (repeat (ex_zero 2) 4, ex_zero 2)] : list dealt).
  assert (Zn : forall n m j, (j < m)%nat -> nth j (repeat (ex_zero n) m) [] = ex_zero n).
  { intros n m j Hj. rewrite (nth_indep _ [] (ex_zero n)) by (rewrite repeat_length; exact Hj). apply nth_repeat. }
  assert (Zc : forall ks n, combines ks (repeat (ex_zero n) (length ks)) (ex_zero n)).
  { intros ks n x. unfold ex_zero at 1. rewrite eval_repeat0. symmetry. rewrite (fsum_map_ext _ (fun _ => fmul fzero fzero)).
    - generalize (seq 0 (length ks)). intros s. induction s as [|a s IH]; [reflexivity|]. cbn [map]. rewrite fsum_cons, IH. ring.
    - intros j Hj. apply in_seq in Hj. rewrite Zn by lia. unfold ex_zero. rewrite eval_repeat0. ring. }
  assert (R : run_ok [0] (ex_zero 2) ex_rounds z).
  { cbn [run_ok ex_rounds z snd]. split; [|split; [|exact I]].
    - split; [reflexivity|]. split; [|split; [reflexivity|apply (Zc [0; 1; 2] 3%nat)]]. intros j Hj. cbn [fst rd_dealers rd_t] in *. rewrite Zn by exact Hj.
      split; [reflexivity|]. intros _. unfold ex_zero. rewrite !eval_repeat0. reflexivity.
    - split; [reflexivity|]. split; [|split; [reflexivity|apply (Zc [0; 1; 2; 3] 2%nat)]]. intros j Hj. cbn [fst rd_dealers rd_t] in *. rewrite Zn by exact Hj.
      split; [reflexivity|]. intros _. unfold ex_zero. rewrite !eval_repeat0. reflexivity. }
  destruct (H (ex_zero 2) z eq_refl (eval_repeat0 _ _) R) as (H1 & H2 & _). exists (add_poly (ex_zero 2) d), (add_run z td).
  split; [rewrite add_poly_length; [reflexivity|symmetry; exact Ld]|]. split; [rewrite H1; apply (fone_neq_fzero q_prime)|exact H2].
Qed.
Example C82_ex_code : keys_ok ex_ds1 /\ is_ok (new_transcript 2 ex_ds1 (TReshareUnmasked (tr_commitment ex_t0))) = true /\
  forall j, (j < 2)%nat -> length (nth j [[of_Z q 6; of_Z q 3]; [of_Z q 7; of_Z q 9]] []) = 2%nat /\
    forall d, nth_error (map snd ex_ds1) j = Some d -> commits (pts_of (d_cm d)) (nth j [[of_Z q 6; of_Z q 3]; [of_Z q 7; of_Z q 9]] []).
Proof.
  split; [split; cbn [ex_ds1 map fst]; [repeat constructor; unfold int64_ok; lia|repeat constructor; cbn; intuition discriminate]|].
  split; [unfold new_transcript, combine_interp; change (map fst ex_ds1) with [0; 1]; rewrite ex_lagrange_01; vm_compute; reflexivity|].
  intros [|[|j]] Hj; [| |lia]; (split; [reflexivity|]); intros d E; injection E as <-.
  - intros [|[|[|i]]]; apply fe_eq; reflexivity.
  - intros [|[|[|i]]]; apply fe_eq; reflexivity.
Qed.
