(** C104: dealers who deviate in any round of the protocol cannot make the honest
    signers produce a wrong signature, unless the discrete logarithm of H comes out. *)
From Coq Require Import ZArith Lia Bool String List Ring Field.
From Verif Require Import Base BaseFacts Zmod Fields ModelScalar ProofScalar ModelXmd ModelRo SpecPoly ModelPoly ProofPoly
  ProofLagrange ProofSecrecy ModelGroup GroupFacts SpecGroup ModelCommit ProofCommit ModelZk ProofZk ModelMega ModelDealing SpecDealing ProofDealing ProofTranscript ProofHonest
  ModelKey SpecKey ModelSign SpecSign ProofSign SpecMalicious PropMalicious PropDealing PropSign PropHiding PropRobust.
From Verif Require Import Toy ToyShort.
Import ListNotations.
Open Scope Z_scope.

Section Spec.
Context {X : Oracles} {GO : Grp}.
(** Spec: a finished round in which arbitrary dealers reshare the masked value that
    [p] commits to.  The dealings are publicly valid and node [k] put [secret k] in
    its dealing; [fork k] is a second answer of that dealer to its proof's first
    message *)
Definition reshared (th n : Z) (ad : bytes) (p : commitment) (ds : list (Z * dealing)) (t : transcript)
  (secret : Z -> Fq) (fork : Z -> Fq * Fq) : Prop :=
  keys_ok ds /\ ds <> [] /\ (forall k d, In (k, d) ds -> publicly_verify d (TReshareMasked p) th k n ad = Ok tt) /\
  new_transcript th ds (TReshareMasked p) = Ok t /\
  (forall k d, In (k, d) ds -> nth 0 (pts_of (d_cm d)) gzero = smul (secret k) genG) /\
  (forall k d pf, In (k, d) ds -> d_proof d = PMasked pf ->
     forked1 (spec_geval (pts_of p) (node_x k)) (smul (secret k) genG) ((eo_challenge pf, eo_response pf), fork k)).
(** a finished round in which arbitrary dealers multiply *)
Definition multiplied (th n : Z) (ad : bytes) (l r : commitment) (ds : list (Z * dealing)) (t : transcript)
  (secret mask : Z -> Fq) (fork : Z -> Fq * Fq * Fq) : Prop :=
  keys_ok ds /\ ds <> [] /\ (forall k d, In (k, d) ds -> publicly_verify d (TTimes l r) th k n ad = Ok tt) /\
  new_transcript th ds (TTimes l r) = Ok t /\
  (forall k d, In (k, d) ds -> nth 0 (pts_of (d_cm d)) gzero = pedersen (secret k) (mask k)) /\
  (forall k d pf, In (k, d) ds -> d_proof d = PProduct pf ->
     forked2 (spec_geval (pts_of l) (node_x k)) (spec_geval (pts_of r) (node_x k)) (pedersen (secret k) (mask k))
       ((pr_challenge pf, pr_response1 pf, pr_response2 pf), fork k)).
(** the polynomials behind a masked, resp. an unmasked commitment *)
Definition masked_by (p : commitment) (po mo : list Fq) : Prop :=
  unwrap p = CPedersen (pts_of p) /\ commits2 (pts_of p) po mo /\ (length po <= length (pts_of p))%nat.
Definition unmasked_by (p : commitment) (po : list Fq) : Prop :=
  commits (pts_of p) po /\ (length po <= length (pts_of p))%nat.
(** some dealer of a resharing round told two values of one commitment apart *)
Definition reshare_breaks (ds : list (Z * dealing)) (po mo : list Fq) (secret : Z -> Fq) (fork : Z -> Fq * Fq) : Prop :=
  exists k d pf, In (k, d) ds /\ d_proof d = PMasked pf /\
    log_found (secret k) (mask_of1 ((eo_challenge pf, eo_response pf), fork k)) (spec_eval po (node_x k)) (spec_eval mo (node_x k)).
Definition multiply_breaks (ds : list (Z * dealing)) (pl pr mr : list Fq) (secret mask : Z -> Fq) (fork : Z -> Fq * Fq * Fq) : Prop :=
  exists k d pf, In (k, d) ds /\ d_proof d = PProduct pf /\
    log_found (secret k) (mask k) (fmul (spec_eval pl (node_x k)) (spec_eval pr (node_x k)))
      (fadd (fmul (spec_eval pl (node_x k)) (spec_eval mr (node_x k)))
            (mask_of2 ((pr_challenge pf, pr_response1 pf, pr_response2 pf), fork k))).
End Spec.

Section Active.
Context {X : Oracles} {GO : Grp} {GL : GrpLaws GO}.
Lemma reshared_constant th n ad p ds t sc fk po mo : reshared th n ad p ds t sc fk -> masked_by p po mo ->
  tr_constant_term t = Ok (smul (nth 0 po fzero) genG) \/ reshare_breaks ds po mo sc fk.
Proof.
  intros (K & N & V & T & C & F) (U & M & L).
  exact (C77_masked_resharing X GO GL th ds p (pts_of p) po mo n ad t sc fk K N U M L V T C F).
Qed.
Lemma multiplied_constant th n ad l r ds t sc mk fk pl pr mr : multiplied th n ad l r ds t sc mk fk -> unwrap l = CSimple (pts_of l) -> unmasked_by l pl -> masked_by r pr mr ->
  (exists M, tr_constant_term t = Ok (pedersen (fmul (nth 0 pl fzero) (nth 0 pr fzero)) M)) \/ multiply_breaks ds pl pr mr sc mk fk.
Proof.
  intros (K & N & V & T & C & F) Ul (Cl & Ll) (Ur & Cr & Lr).
  destruct (C77_multiplication X GO GL th ds l r (pts_of l) (pts_of r) pl pr mr n ad t sc mk fk K N Ul Ur Cl Cr Ll Lr V T C F) as [(cs & M & _ & _ & _ & E)|B]; [left; eauto|right; exact B].
Qed.
Lemma dealt_positive th n ad op ds : ds <> [] -> (forall k d, In (k, d) ds -> publicly_verify d op th k n ad = Ok tt) -> 0 < th.
Proof.
  intros N V. destruct ds as [|[k d] ds]; [congruence|]. specialize (V k d (or_introl eq_refl)). apply publicly_verify_inv in V.
  destruct V as (L & Np & _). destruct (pts_of (d_cm d)); [congruence|]. cbn [length] in L. lia.
Qed.
End Active.

(** [mx], [mk], [cl]: the commitments to the masked key, the masked kappa and to
    lambda; [key], [presig], [tkl], [txl]: the transcripts that the four rounds of
    arbitrary dealers ended with; [signers]: node indices with the openings of
    lambda, kappa * lambda and x * lambda that they hold and checked *)
Theorem C104_malicious_dealers_cannot_spoil_signatures :
  forall (X : Oracles) (HX : oracles_ok X) (GO : Grp) (GL : GrpLaws GO) pa h rnd th n ad
    mx mk cl dx dk dkl dxl key presig tkl txl sx sk skl kkl sxl kxl fx fk fkl fxl
    px qx pk qk pl ql rx rk
    (signers : list (Z * ((Fq * Fq) * (Fq * Fq) * (Fq * Fq)))) shares,
  (* the rounds *)
  reshared th n ad mx dx key sx fx -> reshared th n ad mk dk presig sk fk ->
  multiplied th n ad (tr_commitment presig) cl dkl tkl skl kkl fkl ->
  multiplied th n ad (tr_commitment key) cl dxl txl sxl kxl fxl ->
  (* what the commitments hide *)
  masked_by mx px qx -> masked_by mk pk qk -> masked_by cl pl ql -> Z.of_nat (length (pts_of cl)) <= th ->
  unmasked_by (tr_commitment key) rx -> unmasked_by (tr_commitment presig) rk ->
  (* the signers *)
  keys_ok signers -> th <= Z.of_nat (length signers) -> blen h <= 32 ->
  (forall i a b c, In (i, (a, b, c)) signers ->
     c_check_opening cl i (OPedersen (fst a) (snd a)) = Ok true /\
     c_check_opening (tr_commitment tkl) i (OPedersen (fst b) (snd b)) = Ok true /\
     c_check_opening (tr_commitment txl) i (OPedersen (fst c) (snd c)) = Ok true) ->
  map fst shares = map fst signers ->
  (forall i s a b c, In (i, s) shares -> In (i, (a, b, c)) signers ->
     new_share pa h rnd key presig (OPedersen (fst a) (snd a)) (OPedersen (fst b) (snd b)) (OPedersen (fst c) (snd c)) = Ok s) ->
  (exists pub ch sg, derive_public_key (ser (smul (nth 0 px fzero) genG)) pa = Ok (ser pub, ch) /\
     combine_sig pa h rnd key presig th shares = Ok sg /\
     (sg_r sg <> fzero -> sg_s sg <> fzero ->
      sig_verify sg pa h rnd key presig = Ok tt /\ spec_ecdsa pub (bits2int h) (sg_r sg) (sg_s sg))) \/
  (* or the logarithm of H is found in one of the rounds *)
  reshare_breaks dx px qx sx fx \/ reshare_breaks dk pk qk sk fk \/
  multiply_breaks dkl rk pl ql skl kkl fkl \/ multiply_breaks dxl rx pl ql sxl kxl fxl \/
  (* or in the openings *)
  opened_twice th (map (fun e => (fst e, fst (fst (snd e)))) signers) (nth 0 pl fzero) (nth 0 ql fzero) \/
  (exists m, tr_constant_term tkl = Ok (pedersen (fmul (nth 0 pk fzero) (nth 0 pl fzero)) m) /\
     opened_twice th (map (fun e => (fst e, snd (fst (snd e)))) signers) (fmul (nth 0 pk fzero) (nth 0 pl fzero)) m) \/
  (exists m, tr_constant_term txl = Ok (pedersen (fmul (nth 0 px fzero) (nth 0 pl fzero)) m) /\
     opened_twice th (map (fun e => (fst e, snd (snd e))) signers) (fmul (nth 0 px fzero) (nth 0 pl fzero)) m).
Proof.
  intros X HX GO GL pa h rnd th n ad mx mk cl dx dk dkl dxl key presig tkl txl sx sk skl kkl sxl kxl fx fk fkl fxl
    px qx pk qk pl ql rx rk signers shares Rx Rk Rkl Rxl Mx Mk Ml Ll Ux Uk K Ls Hh Hc Hf Hs.
  destruct (reshared_constant _ _ _ _ _ _ _ _ _ _ Rx Mx) as [Ex|B]; [|right; left; exact B].
  destruct (reshared_constant _ _ _ _ _ _ _ _ _ _ Rk Mk) as [Ek|B]; [|right; right; left; exact B].
  pose proof Rx as (Kx & Nx & Vx & Tx & _). pose proof Rk as (Kk & Nk & Vk & Tk & _).
  pose proof (dealt_positive _ _ _ _ _ Nx Vx) as Hth.
  assert (Shape : forall ds op t, keys_ok ds -> op <> TOther -> new_transcript th ds op = Ok t -> transcript_shape th ds op t).
  { intros ds op t Kd No E. apply (new_transcript_shape th ds op t Kd ltac:(lia) No E). }
  pose proof (Shape _ (TReshareMasked mx) _ Kx ltac:(discriminate) Tx) as (gx & Lgx & Sx & _).
  pose proof (Shape _ (TReshareMasked mk) _ Kk ltac:(discriminate) Tk) as (gk & Lgk & Sk & _).
  pose proof Rkl as (Kkl & _ & _ & Tkl & _). pose proof (Shape _ (TTimes (tr_commitment presig) cl) _ Kkl ltac:(discriminate) Tkl) as (gkl & Lgkl & Skl & _).
  pose proof Rxl as (Kxl & _ & _ & Txl & _). pose proof (Shape _ (TTimes (tr_commitment key) cl) _ Kxl ltac:(discriminate) Txl) as (gxl & Lgxl & Sxl & _).
  assert (First : forall t (g : list G) v po, tr_commitment t = CInterp (CSimple g) -> length g = Z.to_nat th -> tr_constant_term t = Ok (smul v genG) ->
     unmasked_by (tr_commitment t) po -> nth 0 po fzero = v /\ exists g', g = smul v genG :: g').
  { intros t g v po S Lg E (C & _). unfold tr_constant_term in E. rewrite S in E, C. unfold c_constant_term, c_points in E. cbn [unwrap] in E. rewrite bind_Ok in E.
    destruct g as [|P g']; [cbn [length] in Lg; lia|]. apply Ok_inj in E. subst P. split; [|eauto]. specialize (C 0%nat). unfold pts_of in C. cbn [unwrap nth] in C.
    symmetry. apply smul_inj_l in C; [exact C|apply genG_nz]. }
  destruct (First key gx _ rx Sx Lgx Ex Ux) as [E1 _]. destruct (First presig gk _ rk Sk Lgk Ek Uk) as [E2 (g' & E3)].
  assert (Simple : forall t g, tr_commitment t = CInterp (CSimple g) -> unwrap (tr_commitment t) = CSimple (pts_of (tr_commitment t))).
  { intros t g S. rewrite S. reflexivity. }
  destruct (multiplied_constant _ _ _ _ _ _ _ _ _ _ _ _ _ Rkl (Simple _ _ Sk) Uk Ml) as [(m2 & C2)|B]; [|right; right; right; left; exact B].
  destruct (multiplied_constant _ _ _ _ _ _ _ _ _ _ _ _ _ Rxl (Simple _ _ Sx) Ux Ml) as [(m3 & C3)|B]; [|right; right; right; right; left; exact B].
  rewrite E1 in C3. rewrite E2 in C2. destruct Ml as (Ucl & Ccl & Lcl).
  assert (Ncl : pts_of cl <> []).
  { destruct signers as [|[i [[a b] c]] signers']; [cbn [length] in Ls; lia|]. destruct (Hc i a b c (or_introl eq_refl)) as (Q & _).
    exact (proj1 (proj2 (check_true_pedersen cl i _ (pts_of cl) Ucl Q))). }
  assert (C1 : c_constant_term cl = Ok (pedersen (nth 0 pl fzero) (nth 0 ql fzero))).
  { unfold c_constant_term, c_points. rewrite Ucl, bind_Ok. specialize (Ccl 0%nat). destruct (pts_of cl) as [|P l]; [congruence|]. cbn [nth] in Ccl. rewrite Ccl. reflexivity. }
  assert (Len : forall c l, unwrap c = CPedersen l -> c_len c = Ok (Z.of_nat (length l))).
  { intros c l E. unfold c_len, c_points. rewrite E. reflexivity. }
  destruct (C93_checked_openings_sign X HX GO GL pa h rnd key presig th cl (tr_commitment tkl) (tr_commitment txl)
     (Z.of_nat (length (pts_of cl))) (Z.of_nat (length gkl)) (Z.of_nat (length gxl)) (nth 0 px fzero) (nth 0 pk fzero) (nth 0 pl fzero) (nth 0 ql fzero) m2 m3 g' signers shares)
    as [S|[S|[S|S]]]; try assumption.
  - rewrite Sk, E3. reflexivity.
  - apply Len, Ucl.
  - apply Len. rewrite Skl. reflexivity.
  - apply Len. rewrite Sxl. reflexivity.
  - lia.
  - lia.
  - lia.
  - left. exact S.
  - do 5 right. left. exact S.
  - do 6 right. left. exists m2. split; [exact C2|exact S].
  - do 7 right. exists m3. split; [exact C3|exact S].
Qed.
Print Assumptions C104_malicious_dealers_cannot_spoil_signatures.

(** the hypotheses are met: one node, threshold 1, key 5, kappa 11 and lambda 2 with
    masks 7, 3 and 4; the node deals to itself, signs, and answers second
    challenges because it knows the secrets *)
Section ExOne.
Context {X : Oracles} {GO : Grp} {GL : GrpLaws GO}.
Definition fork1_of (d : dealing) (m : Fq) : Fq * Fq :=
  match d_proof d with PMasked pf => (fadd (eo_challenge pf) fone, fadd (eo_response pf) m) | _ => (fzero, fzero) end.
Definition fork2_of (d : dealing) (x y : Fq) : Fq * Fq * Fq :=
  match d_proof d with PProduct pf => (fadd (pr_challenge pf) fone, fadd (pr_response1 pf) x, fadd (pr_response2 pf) y) | _ => (fzero, fzero, fzero) end.
Lemma keys_ok_one {A} (d : A) : keys_ok [(0, d)].
Proof. split; cbn [map fst]; [repeat constructor; unfold int64_ok; lia|repeat constructor; cbn; intuition discriminate]. Qed.
Lemma one_reshared p s m d t th n ad P : publicly_verify d (TReshareMasked p) th 0 n ad = Ok tt -> new_transcript th [(0, d)] (TReshareMasked p) = Ok t ->
  nth 0 (pts_of (d_cm d)) gzero = smul s genG -> pts_of p = [P] -> P = pedersen s m ->
  reshared th n ad p [(0, d)] t (fun _ => s) (fun _ => fork1_of d m).
Proof.
  intros V T C E ->. split; [apply keys_ok_one|]. split; [discriminate|]. split; [intros k d' [Q|[]]; injection Q as <- <-; exact V|]. split; [exact T|].
  split; [intros k d' [Q|[]]; injection Q as <- <-; exact C|].
  intros k d' pf [Q|[]] F; injection Q as <- <-. unfold fork1_of. rewrite F, E, gev_spec. apply forked1_known. cbn [gev]. rewrite smul_gzero, gadd_0_r. reflexivity.
Qed.
Lemma one_multiplied l r x v m w d t th n ad P Q : publicly_verify d (TTimes l r) th 0 n ad = Ok tt -> new_transcript th [(0, d)] (TTimes l r) = Ok t ->
  nth 0 (pts_of (d_cm d)) gzero = pedersen (fmul x v) w -> pts_of l = [P] -> P = smul x genG -> pts_of r = [Q] -> Q = pedersen v m ->
  multiplied th n ad l r [(0, d)] t (fun _ => fmul x v) (fun _ => w) (fun _ => fork2_of d x (fsub w (fmul x m))).
Proof.
  intros V T C E -> E' ->. split; [apply keys_ok_one|]. split; [discriminate|]. split; [intros k d' [R|[]]; injection R as <- <-; exact V|]. split; [exact T|].
  split; [intros k d' [R|[]]; injection R as <- <-; exact C|].
  intros k d' pf [R|[]] F; injection R as <- <-. unfold fork2_of. rewrite F, E, E', !gev_spec. apply forked2_known; [cbn [gev]; rewrite smul_gzero, gadd_0_r; reflexivity|]. apply one_term.
Qed.
Lemma one_masked p P v m : unwrap p = CPedersen [P] -> P = pedersen v m -> masked_by p [v] [m].
Proof.
  intros U ->. assert (E : pts_of p = [pedersen v m]) by (unfold pts_of; rewrite U; reflexivity). unfold masked_by. rewrite E, U.
  split; [reflexivity|]. split; [|cbn; lia]. intros [|i]; cbn [nth]; [reflexivity|]. destruct i; unfold pedersen; rewrite !smul_zero, gadd_0_l; reflexivity.
Qed.
Lemma one_unmasked p P v : pts_of p = [P] -> P = smul v genG -> unmasked_by p [v].
Proof.
  intros E ->. unfold unmasked_by. rewrite E. split; [|cbn; lia]. intros [|i]; cbn [nth]; [reflexivity|]. destruct i; unfold mul_by_g; rewrite !smul_zero; reflexivity.
Qed.
End ExOne.
Section ExLemmas.
Context {X : Oracles} {GO : Grp} {GL : GrpLaws GO} (x xm k km l lm : Fq).
Definition ex_mx : commitment := CPedersen [pedersen x xm].
Definition ex_mk : commitment := CPedersen [pedersen k km].
Definition ex_cl : commitment := CSum (CPedersen [pedersen l lm]).
Record ex_run := mkrun { e_dx : dealing; e_dk : dealing; e_dkl : dealing; e_dxl : dealing; e_key : transcript; e_presig : transcript;
  e_tkl : transcript; e_txl : transcript; e_okl : opening; e_oxl : opening; e_share : sig_share }.
Definition ex_all : res ex_run :=
  do dx <- new_dealing (SReshareMasked x xm) [1] 1 [genG] 0 [];
  do dk <- new_dealing (SReshareMasked k km) [2] 1 [genG] 0 [];
  do key <- new_transcript 1 [(0, dx)] (TReshareMasked ex_mx);
  do presig <- new_transcript 1 [(0, dk)] (TReshareMasked ex_mk);
  do dkl <- new_dealing (STimes k l lm) [3] 1 [genG] 0 [];
  do dxl <- new_dealing (STimes x l lm) [4] 1 [genG] 0 [];
  do tkl <- new_transcript 1 [(0, dkl)] (TTimes (tr_commitment presig) ex_cl);
  do txl <- new_transcript 1 [(0, dxl)] (TTimes (tr_commitment key) ex_cl);
  do okl <- from_dealings [(0, dkl)] (tr_commitment tkl) [] 0 fone genG;
  do oxl <- from_dealings [(0, dxl)] (tr_commitment txl) [] 0 fone genG;
  do s <- new_share [] (repeat 1 32) (repeat 2 32) key presig (OPedersen l lm) okl oxl;
  Ok (mkrun dx dk dkl dxl key presig tkl txl okl oxl s).
Definition ex_fine (e : ex_run) : bool :=
  is_okb (publicly_verify (e_dx e) (TReshareMasked ex_mx) 1 0 1 []) && is_okb (publicly_verify (e_dk e) (TReshareMasked ex_mk) 1 0 1 []) &&
  is_okb (publicly_verify (e_dkl e) (TTimes (tr_commitment (e_presig e)) ex_cl) 1 0 1 []) && is_okb (publicly_verify (e_dxl e) (TTimes (tr_commitment (e_key e)) ex_cl) 1 0 1 []) &&
  match pts_of (d_cm (e_dx e)), pts_of (d_cm (e_dk e)), pts_of (tr_commitment (e_key e)), pts_of (tr_commitment (e_presig e)) with
  | [a], [b], [c], [d] => geqb a (smul x genG) && geqb b (smul k genG) && geqb c (smul x genG) && geqb d (smul k genG)
  | _, _, _, _ => false end &&
  match e_okl e, e_oxl e with
  | OPedersen v m, OPedersen v' m' => feqb v (fmul k l) && feqb v' (fmul x l) &&
     geqb (nth 0 (pts_of (d_cm (e_dkl e))) gzero) (pedersen (fmul k l) m) && geqb (nth 0 (pts_of (d_cm (e_dxl e))) gzero) (pedersen (fmul x l) m')
  | _, _ => false end.
Lemma ex_inv (e : ex_run) : ex_all = Ok e -> ex_fine e = true -> c_check_opening ex_cl 0 (OPedersen l lm) = Ok true ->
  exists dx dk dkl dxl key presig tkl txl m2 m3 s fx fk fkl fxl,
  reshared 1 1 [] ex_mx [(0, dx)] key (fun _ => x) fx /\ reshared 1 1 [] ex_mk [(0, dk)] presig (fun _ => k) fk /\
  multiplied 1 1 [] (tr_commitment presig) ex_cl [(0, dkl)] tkl (fun _ => fmul k l) (fun _ => m2) fkl /\
  multiplied 1 1 [] (tr_commitment key) ex_cl [(0, dxl)] txl (fun _ => fmul x l) (fun _ => m3) fxl /\
  masked_by ex_mx [x] [xm] /\ masked_by ex_mk [k] [km] /\ masked_by ex_cl [l] [lm] /\
  unmasked_by (tr_commitment key) [x] /\ unmasked_by (tr_commitment presig) [k] /\
  c_check_opening ex_cl 0 (OPedersen l lm) = Ok true /\
  c_check_opening (tr_commitment tkl) 0 (OPedersen (fmul k l) m2) = Ok true /\
  c_check_opening (tr_commitment txl) 0 (OPedersen (fmul x l) m3) = Ok true /\
  new_share [] (repeat 1 32) (repeat 2 32) key presig (OPedersen l lm) (OPedersen (fmul k l) m2)
    (OPedersen (fmul x l) m3) = Ok s.
Proof.
  intros E B L. unfold ex_all in E.
  repeat (apply bind_inv in E; let a := fresh "a" in let H := fresh "H" in destruct E as (a & H & E)).
  apply Ok_inj in E. subst e. unfold ex_fine in B. cbn [e_dx e_dk e_dkl e_dxl e_key e_presig e_tkl e_txl e_okl e_oxl e_share] in B.
  apply andb_prop in B. destruct B as [B B6]. apply andb_prop in B. destruct B as [B B5].
  apply andb_prop in B. destruct B as [B B4]. apply andb_prop in B. destruct B as [B B3]. apply andb_prop in B. destruct B as [B1 B2].
  apply is_okb_ok in B1, B2, B3, B4.
  destruct (pts_of (d_cm a)) as [|p1 [|]] eqn:P1; try discriminate B5. destruct (pts_of (d_cm a0)) as [|p2 [|]] eqn:P2; try discriminate B5.
  destruct (pts_of (tr_commitment a1)) as [|p3 [|]] eqn:P3; try discriminate B5. destruct (pts_of (tr_commitment a2)) as [|p4 [|]] eqn:P4; try discriminate B5.
  apply andb_prop in B5. destruct B5 as [B5 G4]. apply andb_prop in B5. destruct B5 as [B5 G3]. apply andb_prop in B5. destruct B5 as [G1 G2].
  apply geqb_iff in G1, G2, G3, G4. destruct a7 as [|v m| | |]; try discriminate B6. destruct a8 as [|v' m'| | |]; try discriminate B6.
  apply andb_prop in B6. destruct B6 as [B6 G6]. apply andb_prop in B6. destruct B6 as [B6 G5]. apply andb_prop in B6. destruct B6 as [V V'].
  apply feqb_eq in V, V'. apply geqb_iff in G5, G6.
  subst v v'.
  exists a, a0, a3, a4, a1, a2, a5, a6, m, m', a9. do 4 eexists.
  split; [apply (one_reshared ex_mx x xm a a1 1 1 [] (pedersen x xm) B1); [exact H1|rewrite P1; exact G1|reflexivity|reflexivity]|].
  split; [apply (one_reshared ex_mk k km a0 a2 1 1 [] (pedersen k km) B2); [exact H2|rewrite P2; exact G2|reflexivity|reflexivity]|].
  split; [apply (one_multiplied _ ex_cl k l lm m a3 a5 1 1 [] _ (pedersen l lm) B3 H5 G5 P4 G4); reflexivity|].
  split; [apply (one_multiplied _ ex_cl x l lm m' a4 a6 1 1 [] _ (pedersen l lm) B4 H6 G6 P3 G3); reflexivity|].
  split; [eapply one_masked; reflexivity|]. split; [eapply one_masked; reflexivity|]. split; [eapply one_masked; reflexivity|].
  split; [apply (one_unmasked _ _ _ P3 G3)|]. split; [apply (one_unmasked _ _ _ P4 G4)|].
  split; [exact L|]. split; [exact (from_dealings_sound _ _ _ _ _ _ _ H7)|]. split; [exact (from_dealings_sound _ _ _ _ _ _ _ H8)|].
  exact H9.
Qed.
End ExLemmas.
#[local] Existing Instance shortX.
#[local] Existing Instance toyG.
#[local] Existing Instance toyL.
Example C104_ex_fine : match @ex_all shortX toyG (of_Z q 5) (of_Z q 7) (of_Z q 11) (of_Z q 3) (of_Z q 2) (of_Z q 4) with Ok e => @ex_fine shortX toyG (of_Z q 5) (of_Z q 7) (of_Z q 11) (of_Z q 3) (of_Z q 2) (of_Z q 4) e | _ => false end = true.
Proof. vm_compute. reflexivity. Qed.
(** everything the theorem asks for at once *)
Example C104_ex : exists dx dk dkl dxl key presig tkl txl m2 m3 s fx fk fkl fxl,
  reshared 1 1 [] (ex_mx (of_Z q 5) (of_Z q 7)) [(0, dx)] key (fun _ => of_Z q 5) fx /\ reshared 1 1 [] (ex_mk (of_Z q 11) (of_Z q 3)) [(0, dk)] presig (fun _ => of_Z q 11) fk /\
  multiplied 1 1 [] (tr_commitment presig) (ex_cl (of_Z q 2) (of_Z q 4)) [(0, dkl)] tkl (fun _ => fmul (of_Z q 11) (of_Z q 2)) (fun _ => m2) fkl /\
  multiplied 1 1 [] (tr_commitment key) (ex_cl (of_Z q 2) (of_Z q 4)) [(0, dxl)] txl (fun _ => fmul (of_Z q 5) (of_Z q 2)) (fun _ => m3) fxl /\
  masked_by (ex_mx (of_Z q 5) (of_Z q 7)) [of_Z q 5] [of_Z q 7] /\ masked_by (ex_mk (of_Z q 11) (of_Z q 3)) [of_Z q 11] [of_Z q 3] /\ masked_by (ex_cl (of_Z q 2) (of_Z q 4)) [of_Z q 2] [of_Z q 4] /\
  unmasked_by (tr_commitment key) [of_Z q 5] /\ unmasked_by (tr_commitment presig) [of_Z q 11] /\
  c_check_opening (ex_cl (of_Z q 2) (of_Z q 4)) 0 (OPedersen (of_Z q 2) (of_Z q 4)) = Ok true /\
  c_check_opening (tr_commitment tkl) 0 (OPedersen (fmul (of_Z q 11) (of_Z q 2)) m2) = Ok true /\
  c_check_opening (tr_commitment txl) 0 (OPedersen (fmul (of_Z q 5) (of_Z q 2)) m3) = Ok true /\
  new_share [] (repeat 1 32) (repeat 2 32) key presig (OPedersen (of_Z q 2) (of_Z q 4)) (OPedersen (fmul (of_Z q 11) (of_Z q 2)) m2)
    (OPedersen (fmul (of_Z q 5) (of_Z q 2)) m3) = Ok s.
Proof.
  destruct (okb_ex (@ex_fine shortX toyG (of_Z q 5) (of_Z q 7) (of_Z q 11) (of_Z q 3) (of_Z q 2) (of_Z q 4)) (@ex_all shortX toyG (of_Z q 5) (of_Z q 7) (of_Z q 11) (of_Z q 3) (of_Z q 2) (of_Z q 4)) C104_ex_fine) as (e & E & B). refine (@ex_inv shortX toyG toyL (of_Z q 5) (of_Z q 7) (of_Z q 11) (of_Z q 3) (of_Z q 2) (of_Z q 4) e E B _). vm_compute. reflexivity.
Qed.
