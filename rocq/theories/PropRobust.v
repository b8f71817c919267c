(** C93: whatever the dealers did, signers whose openings match the transcripts make
    a valid signature, unless the openings give the discrete logarithm of H. *)
From Coq Require Import ZArith Lia Bool String List Ring Field.
From Verif Require Import Base BaseFacts Zmod Fields ModelScalar ProofScalar ModelXmd ModelRo SpecPoly ModelPoly ProofPoly
  ProofLagrange ProofSecrecy ModelGroup GroupFacts SpecGroup ModelCommit ProofCommit ModelZk ModelMega ModelDealing SpecDealing ProofDealing ProofTranscript
  ModelKey SpecKey ModelSign SpecSign ProofSign SpecMalicious PropMalicious PropDealing PropSign.
From Verif Require Import Toy.
Import ListNotations.
Open Scope Z_scope.

(** Spec: the value at [x] of the polynomial through the values (resp. masks) of
    the given openings *)
Definition line_at (f : Fq * Fq -> Fq) (os : list (Z * (Fq * Fq))) (x : Fq) : Fq :=
  fsum (map (fun i => fmul (f (snd (nth i os (0, (fzero, fzero))))) (spec_lagrange x (map (fun e => node_x (fst e)) os) i)) (seq 0 (length os))).
Section Found.
Context {GO : Grp}.
(** Spec: some opening differs from the value given by the first [th] ones, or
    the value these give at zero differs from [v]; either way the logarithm of H
    is read off *)
Definition opened_twice (th : Z) (os : list (Z * (Fq * Fq))) (v m : Fq) : Prop :=
  let first := firstn (Z.to_nat th) os in
  log_found (line_at fst first fzero) (line_at snd first fzero) v m \/
  exists i a b, In (i, (a, b)) os /\ log_found a b (line_at fst first (node_x i)) (line_at snd first (node_x i)).
End Found.

Section Robust.
Context {GO : Grp} {GL : GrpLaws GO}.

Lemma nodes_of os : map (fun e : Z * (Fq * Fq) => node_x (fst e)) os = map from_node_index (map fst os).
Proof. rewrite map_map. apply map_ext. intros e. symmetry. apply node_x_eq. Qed.
Lemma line_poly f os : exists po, (length po <= length os)%nat /\ forall x, line_at f os x = pev po x.
Proof.
  assert (I : isp (length os) (line_at f os)).
  { apply (isp_sum _ (fun i x => fmul (f (snd (nth i os (0, (fzero, fzero))))) (spec_lagrange x (map (fun e => node_x (fst e)) os) i))).
    intros i Hi. apply in_seq in Hi. apply isp_scale.
    pose proof (isp_lagrange (map (fun e : Z * (Fq * Fq) => node_x (fst e)) os) i) as J. rewrite map_length in J. apply J. lia. }
  destruct I as (l & L & E). exists l. auto.
Qed.
Lemma line_node f os k a : keys_ok os -> In (k, a) os -> line_at f os (node_x k) = f a.
Proof.
  intros [F N] I. pose proof (nodes_nodup _ F N) as D. rewrite <- nodes_of in D.
  apply (In_nth _ _ (0, (fzero, fzero))) in I. destruct I as (i & Hi & Ei).
  assert (Ek : nth i (map (fun e : Z * (Fq * Fq) => node_x (fst e)) os) fzero = node_x k).
  { rewrite (nth_indep _ fzero ((fun e : Z * (Fq * Fq) => node_x (fst e)) (0, (fzero, fzero)))) by (rewrite map_length; exact Hi).
    rewrite (map_nth (fun e : Z * (Fq * Fq) => node_x (fst e))), Ei. reflexivity. }
  unfold line_at. rewrite <- Ek.
  rewrite (fsum_delta _ i) by
    (exact Hi || intros j Hj Hn; rewrite spec_lagrange_other by (rewrite ?map_length; auto || lia); ring).
  rewrite spec_lagrange_self by (rewrite ?map_length; auto). rewrite Ei. cbn [snd]. ring.
Qed.
(** a commitment opened at as many nodes as it has points *)
Lemma line_commits l os x : keys_ok os -> os <> [] -> (length l <= length os)%nat ->
  (forall k a b, In (k, (a, b)) os -> gev l (from_node_index k) = pedersen a b) ->
  gev l x = pedersen (line_at fst os x) (line_at snd os x).
Proof.
  intros K Ne L H. pose proof K as [F N].
  assert (Nk : map fst os <> []) by (destruct os; [congruence|discriminate]).
  destruct (lagrange_ok x (map fst os) F N Nk) as (cs & E & _ & _).
  rewrite <- (lagrange_wsum x (map fst os) (gev l) cs F N E) by (apply gisp_gev; rewrite map_length; exact L).
  destruct (line_poly fst os) as (po & Lp & Ep). destruct (line_poly snd os) as (mo & Lm & Em). rewrite Ep, Em.
  rewrite <- (lagrange_fwsum x (map fst os) (pev po) cs F N E) by (apply isp_pev; rewrite map_length; exact Lp).
  rewrite <- (lagrange_fwsum x (map fst os) (pev mo) cs F N E) by (apply isp_pev; rewrite map_length; exact Lm).
  rewrite <- wsum_pedersen. f_equal. rewrite !map_map. apply map_ext_in. intros [k [a b]] I. cbn [fst].
  rewrite (H k a b I), <- Ep, <- Em, node_x_eq, (line_node fst os k (a, b) K I), (line_node snd os k (a, b) K I). reflexivity.
Qed.
Lemma firstn_in {A} n (l : list A) a : In a (firstn n l) -> In a l.
Proof. revert l. induction n as [|n IH]; intros [|b l] H; cbn [firstn] in H; try contradiction. destruct H as [->|H]; [left; reflexivity|right; auto]. Qed.
Lemma firstn_keys {A} n (l : list (Z * A)) : keys_ok l -> keys_ok (firstn n l).
Proof.
  intros [F N]. split.
  - rewrite <- firstn_map. apply Forall_forall. intros x Hx. rewrite Forall_forall in F. apply F. revert Hx. apply firstn_in.
  - rewrite <- firstn_map. revert N. generalize (map fst l). clear. intros l. revert n. induction l as [|a l IH]; intros [|n] N; cbn [firstn]; try constructor.
    + inversion N as [|? ? A1 B]; subst. intros I. apply A1. revert I. apply firstn_in.
    + inversion N as [|? ? A1 B]; subst. apply IH, B.
Qed.

(** the openings lie on one polynomial with the right constant term *)
Lemma one_sharing c th os v m n : keys_ok os -> 0 < th <= Z.of_nat (length os) -> c_len c = Ok n -> n <= th ->
  (forall k a b, In (k, (a, b)) os -> c_check_opening c k (OPedersen a b) = Ok true) -> c_constant_term c = Ok (pedersen v m) ->
  (exists po, Z.of_nat (length po) <= th /\ spec_eval po fzero = v /\ forall k a b, In (k, (a, b)) os -> spec_eval po (node_x k) = a) \/
  opened_twice th os v m.
Proof.
  intros K Hth Hn Ln H Hc. set (fs := firstn (Z.to_nat th) os).
  assert (Lf : length fs = Z.to_nat th) by (unfold fs; rewrite firstn_length; lia).
  assert (Kf : keys_ok fs) by (apply firstn_keys, K).
  assert (Nf : fs <> []) by (intros E; rewrite E in Lf; cbn [length] in Lf; lia).
  assert (U : exists l, unwrap c = CPedersen l /\ l <> []).
  { destruct os as [|[k [a b]] os']; [cbn [length] in Hth; lia|]. specialize (H k a b (or_introl eq_refl)).
    unfold c_check_opening in H. destruct (unwrap c) as [l|l| | |] eqn:U; try discriminate H.
    destruct (check_true_pedersen c k (OPedersen a b) l U) as (_ & N & _); [unfold c_check_opening; rewrite U; exact H|eauto]. }
  destruct U as (l & U & Nl). unfold c_len, c_points in Hn. rewrite U, bind_Ok in Hn. apply Ok_inj in Hn.
  assert (G : forall k a b, In (k, (a, b)) os -> gev l (from_node_index k) = pedersen a b).
  { intros k a b I. exact (proj2 (proj2 (check_true_pedersen c k (OPedersen a b) l U (H k a b I)))). }
  assert (C : forall x, gev l x = pedersen (line_at fst fs x) (line_at snd fs x)).
  { intros x. apply line_commits; try assumption; [lia|]. intros k a b I. apply G. apply firstn_in in I. exact I. }
  destruct (line_poly fst fs) as (po & Lp & Ep).
  assert (Z0 : pedersen (line_at fst fs fzero) (line_at snd fs fzero) = pedersen v m).
  { rewrite <- C, gev_0. unfold c_constant_term, c_points in Hc. rewrite U, bind_Ok in Hc. destruct l as [|P l]; [congruence|]. apply Ok_inj in Hc. exact Hc. }
  destruct (pedersen_two _ _ _ _ Z0) as [E0|E0]; [|right; left; exact E0].
  destruct (all_or_one (fun e : Z * (Fq * Fq) => fst (snd e) = line_at fst fs (node_x (fst e)))
     (fun e => log_found (fst (snd e)) (snd (snd e)) (line_at fst fs (node_x (fst e))) (line_at snd fs (node_x (fst e)))) os) as [A|([k [a b]] & I & A)].
  - intros [k [a b]] I. cbn [fst snd]. apply pedersen_two. rewrite <- (G k a b I), <- C, node_x_eq. reflexivity.
  - left. exists po. split; [lia|]. split; [rewrite pev_spec, <- Ep; exact E0|]. intros k a b I. rewrite pev_spec, <- Ep. symmetry. exact (A _ I).
  - right. right. exists k, a, b. auto.
Qed.
End Robust.

(** [signers]: node indices with the openings of lambda, kappa * lambda and x * lambda
    they hold *)
Theorem C93_checked_openings_sign :
  forall (X : Oracles) (HX : oracles_ok X) (GO : Grp) (GL : GrpLaws GO) pa h rnd key presig th cl ckl cxl n1 n2 n3 x kappa lambda m1 m2 m3 l
    (signers : list (Z * ((Fq * Fq) * (Fq * Fq) * (Fq * Fq)))) shares,
  tr_constant_term key = Ok (smul x genG) -> tr_commitment presig = CInterp (CSimple (smul kappa genG :: l)) ->
  c_constant_term cl = Ok (pedersen lambda m1) -> c_constant_term ckl = Ok (pedersen (fmul kappa lambda) m2) ->
  c_constant_term cxl = Ok (pedersen (fmul x lambda) m3) ->
  c_len cl = Ok n1 -> c_len ckl = Ok n2 -> c_len cxl = Ok n3 -> n1 <= th -> n2 <= th -> n3 <= th ->
  keys_ok signers -> 0 < th <= Z.of_nat (length signers) -> blen h <= 32 ->
  (forall i a b c, In (i, (a, b, c)) signers ->
     c_check_opening cl i (OPedersen (fst a) (snd a)) = Ok true /\ c_check_opening ckl i (OPedersen (fst b) (snd b)) = Ok true /\
     c_check_opening cxl i (OPedersen (fst c) (snd c)) = Ok true) ->
  map fst shares = map fst signers ->
  (forall i s a b c, In (i, s) shares -> In (i, (a, b, c)) signers ->
     new_share pa h rnd key presig (OPedersen (fst a) (snd a)) (OPedersen (fst b) (snd b)) (OPedersen (fst c) (snd c)) = Ok s) ->
  (exists pk ch sg, derive_public_key (ser (smul x genG)) pa = Ok (ser pk, ch) /\ combine_sig pa h rnd key presig th shares = Ok sg /\
     (sg_r sg <> fzero -> sg_s sg <> fzero ->
      sig_verify sg pa h rnd key presig = Ok tt /\ spec_ecdsa pk (bits2int h) (sg_r sg) (sg_s sg))) \/
  opened_twice th (map (fun e => (fst e, fst (fst (snd e)))) signers) lambda m1 \/
  opened_twice th (map (fun e => (fst e, snd (fst (snd e)))) signers) (fmul kappa lambda) m2 \/
  opened_twice th (map (fun e => (fst e, snd (snd e))) signers) (fmul x lambda) m3.
Proof.
  intros X HX GO GL pa h rnd key presig th cl ckl cxl n1 n2 n3 x kappa lambda m1 m2 m3 l signers shares
    Hx Hk C1 C2 C3 N1 N2 N3 L1 L2 L3 K Hth Hh Hc Hf Hs.
  assert (Kp : forall f : (Fq * Fq) * (Fq * Fq) * (Fq * Fq) -> Fq * Fq, keys_ok (map (fun e => (fst e, f (snd e))) signers)).
  { intros f. unfold keys_ok. rewrite map_map. exact K. }
  assert (Lm : forall f : (Fq * Fq) * (Fq * Fq) * (Fq * Fq) -> Fq * Fq, 0 < th <= Z.of_nat (length (map (fun e => (fst e, f (snd e))) signers))).
  { intros f. rewrite map_length. exact Hth. }
  assert (In3 : forall (f : (Fq * Fq) * (Fq * Fq) * (Fq * Fq) -> Fq * Fq) k a b, In (k, (a, b)) (map (fun e => (fst e, f (snd e))) signers) ->
    exists o1 o2 o3, In (k, (o1, o2, o3)) signers /\ f (o1, o2, o3) = (a, b)).
  { intros f k a b I. apply in_map_iff in I. destruct I as ([k' [[o1 o2] o3]] & E & I). cbn [fst snd] in E.
    exists o1, o2, o3. apply pair_equal_spec in E. destruct E as [<- E]. auto. }
  destruct (one_sharing cl th (map (fun e => (fst e, fst (fst (snd e)))) signers) lambda m1 n1 (Kp (fun t => fst (fst t))) (Lm (fun t => fst (fst t))) N1 L1) as [(P1 & D1 & Z1 & V1)|F];
    [|exact C1| |right; left; exact F].
  { intros k a b I. destruct (In3 (fun t => fst (fst t)) k a b I) as (o1 & o2 & o3 & J & E). cbn [fst snd] in E. subst o1. exact (proj1 (Hc _ _ _ _ J)). }
  destruct (one_sharing ckl th (map (fun e => (fst e, snd (fst (snd e)))) signers) (fmul kappa lambda) m2 n2 (Kp (fun t => snd (fst t))) (Lm (fun t => snd (fst t))) N2 L2) as [(P2 & D2 & Z2 & V2)|F];
    [|exact C2| |right; right; left; exact F].
  { intros k a b I. destruct (In3 (fun t => snd (fst t)) k a b I) as (o1 & o2 & o3 & J & E). cbn [fst snd] in E. subst o2. exact (proj1 (proj2 (Hc _ _ _ _ J))). }
  destruct (one_sharing cxl th (map (fun e => (fst e, snd (snd e))) signers) (fmul x lambda) m3 n3 (Kp snd) (Lm snd) N3 L3) as [(P3 & D3 & Z3 & V3)|F];
    [|exact C3| |right; right; right; exact F].
  { intros k a b I. destruct (In3 snd k a b I) as (o1 & o2 & o3 & J & E). cbn [fst snd] in E. subst o3. exact (proj2 (proj2 (Hc _ _ _ _ J))). }
  left. apply (C50_threshold_signature_is_ecdsa X HX GO GL pa h rnd key presig th shares P1 P2 P3 x kappa lambda); try assumption.
  - split; [exact Hx|]. split; [exists l; exact Hk|]. auto.
  - unfold keys_ok. rewrite Hf. exact K.
  - apply Hth.
  - rewrite <- (map_length fst shares), Hf, map_length. apply Hth.
  - intros i s I.
    assert (J : In i (map fst signers)) by (rewrite <- Hf; apply (in_map fst) in I; exact I).
    apply in_map_iff in J. destruct J as ([i' [[[a1 a2] [b1 b2]] [c1 c2]]] & Ei & J). cbn [fst] in Ei. subst i'.
    exists a2, b2, c2. specialize (Hs i s _ _ _ I J). cbn [fst snd] in Hs.
    rewrite (V1 i a1 a2), (V2 i b1 b2), (V3 i c1 c2); [exact Hs| | | ]; apply in_map_iff; eexists; (split; [|exact J]; reflexivity).
Qed.
Print Assumptions C93_checked_openings_sign.

(** the example of C50 with threshold 2 and three signers; the masks are x - 1, 1 and 0 *)
Definition ex_signers : list (Z * ((Fq * Fq) * (Fq * Fq) * (Fq * Fq))) :=
  map (fun i => (i, ((spec_eval ex_L (node_x i), of_Z q i), (spec_eval ex_KL (node_x i), fone), (spec_eval ex_XL (node_x i), fzero)))) [0; 1; 5].
Definition ex_cl : @commitment toyG := CSum (CPedersen [pedersen (of_Z q 2) (of_Z q (-1)); pedersen (of_Z q 31) fone]).
Definition ex_ckl : @commitment toyG := CInterp (CPedersen [pedersen (of_Z q 22) fone; pedersen (of_Z q 32) fzero]).
Definition ex_cxl : @commitment toyG := CInterp (CPedersen [pedersen (of_Z q 14) fzero; pedersen (of_Z q 33) fzero]).
Definition okt (r : res bool) : bool := match r with Ok b => b | _ => false end.
Lemma okt_ok r : okt r = true -> r = Ok true. Proof. destruct r as [[|]| | |]; try discriminate. reflexivity. Qed.
Example C93_ex_checks : forall i a b c, In (i, (a, b, c)) ex_signers ->
  c_check_opening ex_cl i (OPedersen (fst a) (snd a)) = Ok true /\ c_check_opening ex_ckl i (OPedersen (fst b) (snd b)) = Ok true /\
  c_check_opening ex_cxl i (OPedersen (fst c) (snd c)) = Ok true.
Proof.
  assert (A : forallb (fun e => let '(i, (a, b, c)) := e in okt (c_check_opening ex_cl i (OPedersen (fst a) (snd a))) &&
    okt (c_check_opening ex_ckl i (OPedersen (fst b) (snd b))) && okt (c_check_opening ex_cxl i (OPedersen (fst c) (snd c)))) ex_signers = true) by (vm_compute; reflexivity).
  rewrite forallb_forall in A. intros i a b c I. specialize (A _ I). cbv beta iota in A.
  apply andb_prop in A. destruct A as [A C]. apply andb_prop in A. destruct A as [A B]. split; [|split]; apply okt_ok; assumption.
Qed.
Example C93_ex_constants : tr_constant_term ex_key = Ok (smul (of_Z q 7) genG) /\
  c_constant_term ex_cl = Ok (pedersen (of_Z q 2) (of_Z q (-1))) /\ c_constant_term ex_ckl = Ok (pedersen (fmul (of_Z q 11) (of_Z q 2)) fone) /\
  c_constant_term ex_cxl = Ok (pedersen (fmul (of_Z q 7) (of_Z q 2)) fzero) /\ keys_ok ex_signers.
Proof.
  assert (fmul (of_Z q 11) (of_Z q 2) = of_Z q 22) as -> by (apply fe_eq; vm_compute; reflexivity).
  assert (fmul (of_Z q 7) (of_Z q 2) = of_Z q 14) as -> by (apply fe_eq; vm_compute; reflexivity).
  split; [reflexivity|]. split; [reflexivity|]. split; [reflexivity|]. split; [reflexivity|].
  split; cbn [map fst ex_signers].
  - repeat constructor; unfold int64_ok; lia.
  - repeat constructor; cbn; intuition discriminate.
Qed.
