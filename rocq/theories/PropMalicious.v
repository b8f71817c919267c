(** C77: dealers who deviate from the protocol cannot change the secret,
    unless the discrete logarithm of H comes out of what they sent. *)
From Coq Require Import ZArith Lia Bool String List Ring Field.
From Verif Require Import Base BaseFacts Zmod Fields ModelScalar ProofScalar ModelXmd ModelRo SpecPoly ModelPoly ProofPoly
  ProofLagrange ProofSecrecy ModelGroup GroupFacts SpecGroup ModelCommit ProofCommit ModelZk ProofZk ModelMega
  ModelDealing SpecDealing ProofDealing ProofTranscript ProofHonest SpecMalicious PropDealing PropHiding Toy.
Import ListNotations.
Open Scope Z_scope.

Section Mal.
Context {X : Oracles} (HX : oracles_ok X) {GO : Grp} {GL : GrpLaws GO}.

Lemma pedersen_two v m v' m' : pedersen v m = pedersen v' m' -> v = v' \/ log_found v m v' m'.
Proof.
  intros E. destruct (feqb v v') eqn:Ev; [left; apply feqb_eq; exact Ev|right]. apply feqb_neq in Ev.
  apply pedersen_collision; [exact E|]. congruence.
Qed.
Lemma forked1_mask a b w : forked1 a b w -> a = gadd b (smul (mask_of1 w) genH).
Proof.
  destruct w as [[c z] [c' z']]. intros [N E]. exact (eqo_special_sound genH a b (mkeqo c z) (mkeqo c' z') E N).
Qed.
Lemma forked2_mask l r pr w x : forked2 l r pr w -> l = smul x genG -> pr = gadd (smul x r) (smul (mask_of2 w) genH).
Proof.
  destruct w as [[[c z1] z2] [[c' z1'] z2']]. intros (N & E1 & E2) El.
  destruct (prod_special_sound genH l r pr (mkprod c z1 z2) (mkprod c' z1' z2')) as [A B].
  - unfold prod_recover, mul_points, mul_by_g. cbn [pr_response1 pr_response2 pr_challenge]. f_equal; assumption.
  - exact N.
  - cbn [pr_response1 pr_response2 pr_challenge] in A, B. rewrite El in A. apply smul_inj_l in A; [|apply genG_nz].
    rewrite <- A in B. exact B.
Qed.
(** whoever knows the difference can answer any number of challenges *)
Lemma forked1_known a b m c z : a = gadd b (smul m genH) -> forked1 a b ((c, z), (fadd c fone, fadd z m)).
Proof.
  intros ->. split.
  - intros E. apply (fone_neq_fzero q_prime). assert (H : fone = fsub (fadd c fone) c) by ring. rewrite H, <- E. ring.
  - unfold gsub. gring.
Qed.
Lemma forked2_known l r pr x y c z1 z2 : l = smul x genG -> pr = gadd (smul x r) (smul y genH) ->
  forked2 l r pr ((c, z1, z2), (fadd c fone, fadd z1 x, fadd z2 y)).
Proof.
  intros -> ->. split; [|split].
  - intros E. apply (fone_neq_fzero q_prime). assert (H : fone = fsub (fadd c fone) c) by ring. rewrite H, <- E. ring.
  - unfold gsub. gring.
  - unfold gsub. gring.
Qed.
Lemma one_term v m x x' w : pedersen (fmul x v) w = gadd (smul x (gev [pedersen v m] x')) (smul (fsub w (fmul x m)) genH).
Proof. cbn [gev]. rewrite smul_gzero, gadd_0_r. gring. Qed.
Lemma times_not_other a b c : STimes a b c <> SOther.
Proof. discriminate. Qed.
(** a property of every dealing, or the exception somewhere *)
Lemma all_or_one {A} (P Q : A -> Prop) l : (forall a, In a l -> P a \/ Q a) -> (forall a, In a l -> P a) \/ exists a, In a l /\ Q a.
Proof.
  induction l as [|a l IH]; intros H; [left; intros ? []|].
  destruct (H a (or_introl eq_refl)) as [Ha|Ha]; [|right; exists a; split; [left; reflexivity|exact Ha]].
  destruct IH as [I|(b & I & J)]; [intros b Hb; apply H; right; exact Hb| |right; exists b; split; [right; exact I|exact J]].
  left. intros b [<-|Hb]; auto.
Qed.
End Mal.

Theorem C77_masked_resharing : forall (X : Oracles) (GO : Grp) (GL : GrpLaws GO) threshold ds p l po mo receivers ad t
    (secret : Z -> Fq) (fork : Z -> Fq * Fq),
  keys_ok ds -> ds <> [] -> unwrap p = CPedersen l -> commits2 l po mo -> (length po <= length l)%nat ->
  (forall k d, In (k, d) ds -> publicly_verify d (TReshareMasked p) threshold k receivers ad = Ok tt) ->
  new_transcript threshold ds (TReshareMasked p) = Ok t ->
  (forall k d, In (k, d) ds -> nth 0 (pts_of (d_cm d)) gzero = smul (secret k) genG) ->
  (forall k d pf, In (k, d) ds -> d_proof d = PMasked pf ->
     forked1 (spec_geval l (node_x k)) (smul (secret k) genG) ((eo_challenge pf, eo_response pf), fork k)) ->
  tr_constant_term t = Ok (smul (nth 0 po fzero) genG) \/
  exists k d pf, In (k, d) ds /\ d_proof d = PMasked pf /\
    log_found (secret k) (mask_of1 ((eo_challenge pf, eo_response pf), fork k)) (spec_eval po (node_x k)) (spec_eval mo (node_x k)).
Proof.
  intros X GO GL th ds p l po mo n ad t sc fk K Hne U C Lpo V T S F.
  assert (l = pts_of p) as -> by (unfold pts_of; rewrite U; reflexivity).
  assert (W : forall kd, In kd ds -> (0 < th /\ nth 0 (dl_pts kd) gzero = mul_by_g (pev po (from_node_index (fst kd)))) \/
    (exists pf, d_proof (snd kd) = PMasked pf /\
    log_found (sc (fst kd)) (mask_of1 ((eo_challenge pf, eo_response pf), fk (fst kd))) (spec_eval po (node_x (fst kd))) (spec_eval mo (node_x (fst kd))))).
  { intros [k d] Hin. cbn [fst snd]. destruct (publicly_verify_inv _ _ _ _ _ _ (V k d Hin)) as (A & B & _ & _ & _ & _ & _ & _ & pf & Ep & _).
    specialize (S k d Hin). specialize (F k d pf Hin Ep). apply forked1_mask in F.
    rewrite gev_spec, (commits2_gev _ _ _ _ C), <- !pev_spec in F.
    destruct (pedersen_two (sc k) (mask_of1 (eo_challenge pf, eo_response pf, fk k)) (spec_eval po (node_x k)) (spec_eval mo (node_x k))) as [E|E].
    - rewrite F. reflexivity.
    - left. split; [destruct (pts_of (d_cm d)); [congruence|cbn [length] in A; lia]|].
      unfold dl_pts. cbn [snd]. rewrite S, E, node_x_eq, pev_spec. reflexivity.
    - right. exists pf. split; [exact Ep|exact E]. }
  apply all_or_one in W. destruct W as [W|([k d] & Hin & pf & Ep & E)]; [left|right; exists k, d, pf; auto].
  assert (Hth : 0 < th) by (destruct ds as [|kd ds']; [congruence|apply (W kd); left; reflexivity]).
  assert (L2 : (length (pts_of p) <= length ds)%nat).
  { unfold new_transcript in T. apply bind_inv in T. destruct T as ([] & _ & T). unfold c_type, c_len, c_points in T. rewrite U in T.
    cbn [bind] in T. change (negb (ct_pedersen =? ct_pedersen)) with false in T. cbv iota in T.
    destruct (Z.ltb_spec (Z.of_nat (length ds)) (Z.of_nat (length (pts_of p)))); [discriminate|lia]. }
  apply new_transcript_shape in T; [|assumption|lia|discriminate]. destruct T as (pts & Lp & Et & I).
  rewrite (tr_constant_interp pts t _ ltac:(lia) Et (or_introl eq_refl)). f_equal.
  rewrite (interp_constant ds pts (fun x => mul_by_g (pev po x))); try assumption.
  - rewrite pev_0. reflexivity.
  - exists (map (fun c => smul c genG) po). rewrite map_length. split; [lia|]. intros v. symmetry. apply gev_scal.
  - intros kd Hin. apply W, Hin.
Qed.

Theorem C77_multiplication : forall (X : Oracles) (GO : Grp) (GL : GrpLaws GO) threshold ds l r ll lr pl pr mr receivers ad t
    (secret mask : Z -> Fq) (fork : Z -> Fq * Fq * Fq),
  keys_ok ds -> ds <> [] -> unwrap l = CSimple ll -> unwrap r = CPedersen lr -> commits ll pl -> commits2 lr pr mr ->
  (length pl <= length ll)%nat -> (length pr <= length lr)%nat ->
  (forall k d, In (k, d) ds -> publicly_verify d (TTimes l r) threshold k receivers ad = Ok tt) ->
  new_transcript threshold ds (TTimes l r) = Ok t ->
  (forall k d, In (k, d) ds -> nth 0 (pts_of (d_cm d)) gzero = pedersen (secret k) (mask k)) ->
  (forall k d pf, In (k, d) ds -> d_proof d = PProduct pf ->
     forked2 (spec_geval ll (node_x k)) (spec_geval lr (node_x k)) (pedersen (secret k) (mask k))
       ((pr_challenge pf, pr_response1 pf, pr_response2 pf), fork k)) ->
  (exists cs M, lagrange_at_zero (map fst ds) = Ok cs /\
     interpolate_scalar cs (map (fun kd => secret (fst kd)) ds) = Ok (fmul (nth 0 pl fzero) (nth 0 pr fzero)) /\
     interpolate_scalar cs (map (fun kd => mask (fst kd)) ds) = Ok M /\
     tr_constant_term t = Ok (pedersen (fmul (nth 0 pl fzero) (nth 0 pr fzero)) M)) \/
  exists k d pf, In (k, d) ds /\ d_proof d = PProduct pf /\
    log_found (secret k) (mask k) (fmul (spec_eval pl (node_x k)) (spec_eval pr (node_x k)))
      (fadd (fmul (spec_eval pl (node_x k)) (spec_eval mr (node_x k)))
            (mask_of2 ((pr_challenge pf, pr_response1 pf, pr_response2 pf), fork k))).
Proof.
  intros X GO GL th ds l r ll lr pl pr mr n ad t sc mk fk K Hne U U' C C' Ll Lr V T S F.
  assert (ll = pts_of l) as -> by (unfold pts_of; rewrite U; reflexivity).
  assert (lr = pts_of r) as -> by (unfold pts_of; rewrite U'; reflexivity).
  set (f := fun x => fmul (pev pl x) (pev pr x)).
  assert (W : forall kd, In kd ds -> (0 < th /\ pts_of l <> [] /\ pts_of r <> [] /\ sc (fst kd) = f (from_node_index (fst kd))) \/
    (exists pf, d_proof (snd kd) = PProduct pf /\
    log_found (sc (fst kd)) (mk (fst kd)) (fmul (spec_eval pl (node_x (fst kd))) (spec_eval pr (node_x (fst kd))))
      (fadd (fmul (spec_eval pl (node_x (fst kd))) (spec_eval mr (node_x (fst kd))))
            (mask_of2 ((pr_challenge pf, pr_response1 pf, pr_response2 pf), fk (fst kd)))))).
  { intros [k d] Hin. cbn [fst snd].
    destruct (publicly_verify_inv _ _ _ _ _ _ (V k d Hin)) as (A & B & _ & _ & _ & _ & _ & Nl & _ & Nr & pf & Ep & _).
    specialize (S k d Hin). specialize (F k d pf Hin Ep).
    rewrite !gev_spec, (commits2_gev _ _ _ _ C'), (commits_gev _ _ _ C), <- !pev_spec in F.
    apply forked2_mask with (x := spec_eval pl (node_x k)) in F; [|reflexivity].
    match type of F with _ = gadd _ (smul ?m _) => set (y := m) in * end.
    destruct (pedersen_two (sc k) (mk k) (fmul (spec_eval pl (node_x k)) (spec_eval pr (node_x k)))
      (fadd (fmul (spec_eval pl (node_x k)) (spec_eval mr (node_x k))) y)) as [E|E].
    - rewrite F. unfold pedersen, mul_points. gring.
    - left. split; [destruct (pts_of (d_cm d)); [congruence|cbn [length] in A; lia]|]. split; [exact Nl|]. split; [exact Nr|].
      unfold f. rewrite E, node_x_eq, !pev_spec. reflexivity.
    - right. exists pf. split; [exact Ep|exact E]. }
  apply all_or_one in W. destruct W as [W|([k d] & Hin & pf & Ep & E)]; [left|right; exists k, d, pf; auto].
  assert (Hth : 0 < th /\ pts_of l <> [] /\ pts_of r <> []) by
    (destruct ds as [|kd ds']; [congruence|destruct (W kd (or_introl eq_refl)) as (? & ? & ? & _); auto]).
  destruct Hth as (Hth & Nl & Nr).
  assert (L2 : (length (pts_of l) + length (pts_of r) <= length ds + 1)%nat).
  { unfold new_transcript in T. apply bind_inv in T. destruct T as ([] & _ & T). unfold c_type, c_len, c_points in T. rewrite U, U' in T.
    cbn [bind] in T. change (negb (ct_pedersen =? ct_pedersen)) with false in T. change (negb (ct_simple =? ct_simple)) with false in T. cbv iota in T.
    match type of T with context [?a <? ?b] => destruct (Z.ltb_spec a b) end; [discriminate|lia]. }
  apply new_transcript_shape in T; [|assumption|lia|discriminate]. destruct T as (pts & Lp & Et & (cs & E & Lc & Nc & Wp)).
  exists cs, (fwsum cs (map (fun kd => mk (fst kd)) ds)). split; [exact E|].
  destruct K as [K1 K2].
  assert (Ef : fwsum cs (map (fun kd => sc (fst kd)) ds) = fmul (nth 0 pl fzero) (nth 0 pr fzero)).
  { rewrite (map_ext_in _ (fun kd => f (from_node_index (fst kd)))) by (intros kd Hin; apply W; exact Hin).
    rewrite <- (map_map fst (fun k => f (from_node_index k))).
    rewrite (lagrange_fwsum fzero (map fst ds) f cs K1 K2 E); [unfold f; rewrite !pev_0; reflexivity|].
    rewrite map_length. apply (isp_mono (length pl + length pr - 1)); [|apply isp_mul; apply isp_pev; lia].
    destruct (pts_of l), (pts_of r); cbn [length] in *; try congruence; lia. }
  split; [rewrite interpolate_scalar_wsum by (rewrite ?map_length; congruence); rewrite Ef; reflexivity|].
  split; [apply interpolate_scalar_wsum; rewrite ?map_length; congruence|].
  rewrite (tr_constant_interp pts t _ ltac:(lia) Et (or_intror eq_refl)). f_equal.
  rewrite <- gev_0, Wp.
  rewrite (map_ext_in _ (fun kd => pedersen (sc (fst kd)) (mk (fst kd)))) by
    (intros [k d] Hin; rewrite gev_0; exact (S k d Hin)).
  rewrite wsum_pedersen, Ef. reflexivity.
Qed.
(** ** The condition is needed: knowing the logarithm of H a dealer makes
    everybody accept another secret. *)
Lemma okb_ex {A} (f : A -> bool) (r : res A) : (match r with Ok a => f a | _ => false end) = true -> exists a, r = Ok a /\ f a = true.
Proof. destruct r; try discriminate. eauto. Qed.
Definition is_okb (r : res unit) : bool := match r with Ok _ => true | _ => false end.
Lemma is_okb_ok r : is_okb r = true -> r = Ok tt.
Proof. destruct r as [[]| | |]; try discriminate. reflexivity. Qed.

Theorem C77_unconditionally_refuted :
  ~ (forall (X : Oracles) (HX : oracles_ok X) (GO : Grp) (GL : GrpLaws GO) threshold ds p l po mo receivers ad t,
       keys_ok ds -> ds <> [] -> unwrap p = CPedersen l -> commits2 l po mo -> (length po <= length l)%nat ->
       (forall k d, In (k, d) ds -> publicly_verify d (TReshareMasked p) threshold k receivers ad = Ok tt) ->
       new_transcript threshold ds (TReshareMasked p) = Ok t ->
       tr_constant_term t = Ok (smul (nth 0 po fzero) genG)).
Proof.
  intros H. specialize (H toyX toyX_ok toyG toyL 1).
  set (p := CPedersen [pedersen (of_Z q 5) (of_Z q 7)]) in *.
  destruct (okb_ex (fun d : dealing => is_okb (publicly_verify d (TReshareMasked p) 1 0 1 []) &&
      match new_transcript 1 [(0, d)] (TReshareMasked p) with
      | Ok t => match tr_constant_term t with Ok P => geqb P (smul (of_Z q 8) genG) && negb (geqb P (smul (of_Z q 5) genG)) | _ => false end
      | _ => false end)
    (new_dealing (SReshareMasked (of_Z q 8) (of_Z q 18789062784993994784616815602972943136819129747919124677173777880987943029218))
       [1] 1 [genG] 0 [])) as (d & _ & B); [vm_compute; reflexivity|]. cbv beta in B.
  apply andb_prop in B. destruct B as [B1 B2]. apply is_okb_ok in B1.
  destruct (new_transcript 1 [(0, d)] (TReshareMasked p)) as [t| | |] eqn:T; try discriminate B2.
  specialize (H [(0, d)] p [pedersen (of_Z q 5) (of_Z q 7)] [of_Z q 5] [of_Z q 7] 1 [] t).
  rewrite H in B2.
  - cbn [nth] in B2. rewrite geqb_refl in B2. apply andb_prop in B2. destruct B2 as [_ B2]; discriminate B2.
  - split; cbn [map fst]; [apply Forall_cons; [unfold int64_ok; lia|apply Forall_nil]|apply NoDup_cons; [intros []|apply NoDup_nil]].
  - discriminate.
  - reflexivity.
  - intros [|[|i]]; apply fe_eq; reflexivity.
  - apply le_n.
  - intros k d' [E|[]]. injection E as <- <-. exact B1.
  - exact T.
Qed.
Print Assumptions C77_masked_resharing.
Print Assumptions C77_multiplication.
Print Assumptions C77_unconditionally_refuted.

(** secret 5 on the line 5 + x, mask 7: the shares of nodes 0 and 2 are 6 and 8 *)
Example C77_ex_masked : exists ds t fork,
  let p := CPedersen [pedersen (of_Z q 5) (of_Z q 7); pedersen fone fzero] in
  let secret k := spec_eval [of_Z q 5; fone] (node_x k) in
  keys_ok ds /\ length ds = 2%nat /\ commits2 [pedersen (of_Z q 5) (of_Z q 7); pedersen fone fzero] [of_Z q 5; fone] [of_Z q 7] /\
  (forall k d, In (k, d) ds -> publicly_verify d (TReshareMasked p) 2 k 2 [] = Ok tt) /\
  new_transcript 2 ds (TReshareMasked p) = Ok t /\
  (forall k d, In (k, d) ds -> nth 0 (pts_of (d_cm d)) gzero = smul (secret k) genG) /\
  (forall k d pf, In (k, d) ds -> d_proof d = PMasked pf ->
     forked1 (spec_geval [pedersen (of_Z q 5) (of_Z q 7); pedersen fone fzero] (node_x k)) (smul (secret k) genG)
       ((eo_challenge pf, eo_response pf), fork k)).
Proof.
  set (p := CPedersen [pedersen (of_Z q 5) (of_Z q 7); pedersen fone fzero]).
  set (good := fun (k : Z) (d : dealing) => is_okb (publicly_verify d (TReshareMasked p) 2 k 2 []) &&
    geqb (nth 0 (pts_of (d_cm d)) gzero) (smul (spec_eval [of_Z q 5; fone] (node_x k)) genG) &&
    match d_proof d with PMasked _ => true | _ => false end).
  destruct (okb_ex (fun d : dealing => good 0 d) (new_dealing (SReshareMasked (spec_eval [of_Z q 5; fone] (node_x 0)) (of_Z q 7)) [1] 2 [genG; genG] 0 []))
    as (d0 & E0 & B0); [vm_compute; reflexivity|].
  destruct (okb_ex (fun d : dealing => good 2 d) (new_dealing (SReshareMasked (spec_eval [of_Z q 5; fone] (node_x 2)) (of_Z q 7)) [2] 2 [genG; genG] 2 []))
    as (d2 & E2 & B2); [vm_compute; reflexivity|]. cbv beta delta [good] in B0, B2.
  assert (K : keys_ok [(0, d0); (2, d2)]).
  { split; cbn [map fst]; [repeat constructor; unfold int64_ok; lia|repeat constructor; cbn; intuition discriminate]. }
  assert (C : commits2 [pedersen (of_Z q 5) (of_Z q 7); pedersen fone fzero] [of_Z q 5; fone] [of_Z q 7]).
  { intros [|[|[|i]]]; apply fe_eq; reflexivity. }
  destruct (C40_masked_preserves toyX toyX_ok toyG toyL 2 [(0, d0); (2, d2)] p _ [of_Z q 5; fone] [of_Z q 7] (fun _ => of_Z q 7) K
    ltac:(discriminate) eq_refl C) as (t & T & _).
  { cbn [length]. lia. }
  { intros k d [E|[E|[]]]; injection E as <- <-; eexists _, _, _; [exact E0|exact E2]. }
  apply andb_prop in B0, B2. destruct B0 as [B0 P0], B2 as [B2 P2]. apply andb_prop in B0, B2. destruct B0 as [A0 B0], B2 as [A2 B2].
  destruct (d_proof d0) as [|z0|] eqn:D0; try discriminate P0. destruct (d_proof d2) as [|z2|] eqn:D2; try discriminate P2.
  apply is_okb_ok in A0, A2. apply geqb_iff in B0, B2.
  exists [(0, d0); (2, d2)], t, (fun k => if k =? 0 then (fadd (eo_challenge z0) fone, fadd (eo_response z0) (of_Z q 7))
                                         else (fadd (eo_challenge z2) fone, fadd (eo_response z2) (of_Z q 7))).
  split; [exact K|]. split; [reflexivity|]. split; [exact C|].
  split; [intros k d [E|[E|[]]]; injection E as <- <-; assumption|]. split; [exact T|].
  split; [intros k d [E|[E|[]]]; injection E as <- <-; assumption|].
  intros k d pf [E|[E|[]]] Ep; injection E as <- <-.
  - rewrite D0 in Ep. injection Ep as <-. apply (@forked1_known toyG toyL). apply geqb_iff. vm_compute. reflexivity.
  - rewrite D2 in Ep. injection Ep as <-. apply (@forked1_known toyG toyL). apply geqb_iff. vm_compute. reflexivity.
Qed.
(** 5 on the line 5 + x times 6 with mask 7 *)
Example C77_ex_product : exists ds t mask fork,
  let l := CSimple [mul_by_g (of_Z q 5); mul_by_g fone] in
  let r := CPedersen [pedersen (of_Z q 6) (of_Z q 7)] in
  let secret k := fmul (spec_eval [of_Z q 5; fone] (node_x k)) (of_Z q 6) in
  keys_ok ds /\ length ds = 2%nat /\ commits [mul_by_g (of_Z q 5); mul_by_g fone] [of_Z q 5; fone] /\
  commits2 [pedersen (of_Z q 6) (of_Z q 7)] [of_Z q 6] [of_Z q 7] /\
  (forall k d, In (k, d) ds -> publicly_verify d (TTimes l r) 2 k 2 [] = Ok tt) /\
  new_transcript 2 ds (TTimes l r) = Ok t /\
  (forall k d, In (k, d) ds -> nth 0 (pts_of (d_cm d)) gzero = pedersen (secret k) (mask k)) /\
  (forall k d pf, In (k, d) ds -> d_proof d = PProduct pf ->
     forked2 (spec_geval [mul_by_g (of_Z q 5); mul_by_g fone] (node_x k)) (spec_geval [pedersen (of_Z q 6) (of_Z q 7)] (node_x k))
       (pedersen (secret k) (mask k)) ((pr_challenge pf, pr_response1 pf, pr_response2 pf), fork k)).
Proof.
  set (l := CSimple [mul_by_g (of_Z q 5); mul_by_g fone]). set (r := CPedersen [pedersen (of_Z q 6) (of_Z q 7)]).
  set (good := fun (k : Z) (d : dealing) => is_okb (publicly_verify d (TTimes l r) 2 k 2 []) &&
    match d_proof d with PProduct _ => true | _ => false end).
  destruct (okb_ex (fun d : dealing => good 0 d) (new_dealing (STimes (spec_eval [of_Z q 5; fone] (node_x 0)) (spec_eval [of_Z q 6] (node_x 0)) (of_Z q 7)) [1] 2 [genG; genG] 0 []))
    as (d0 & E0 & B0); [vm_compute; reflexivity|].
  destruct (okb_ex (fun d : dealing => good 2 d) (new_dealing (STimes (spec_eval [of_Z q 5; fone] (node_x 2)) (spec_eval [of_Z q 6] (node_x 2)) (of_Z q 7)) [2] 2 [genG; genG] 2 []))
    as (d2 & E2 & B2); [vm_compute; reflexivity|]. cbv beta delta [good] in B0, B2.
  assert (K : keys_ok [(0, d0); (2, d2)]).
  { split; cbn [map fst]; [repeat constructor; unfold int64_ok; lia|repeat constructor; cbn; intuition discriminate]. }
  assert (C : commits [mul_by_g (of_Z q 5); mul_by_g fone] [of_Z q 5; fone]).
  { intros [|[|[|i]]]; apply fe_eq; reflexivity. }
  assert (C' : commits2 [pedersen (of_Z q 6) (of_Z q 7)] [of_Z q 6] [of_Z q 7]).
  { intros [|[|i]]; apply fe_eq; reflexivity. }
  destruct (C42_product toyX toyX_ok toyG toyL 2 [(0, d0); (2, d2)] l r _ _ [of_Z q 5; fone] [of_Z q 6] [of_Z q 7] (fun _ => of_Z q 7) K
    ltac:(discriminate) eq_refl eq_refl C C') as (t & M & T & _); try (cbn [length]; lia).
  { intros k d [E|[E|[]]]; injection E as <- <-; eexists _, _, _; [exact E0|exact E2]. }
  apply andb_prop in B0, B2. destruct B0 as [A0 P0], B2 as [A2 P2].
  destruct (d_proof d0) as [| |z0] eqn:D0; try discriminate P0. destruct (d_proof d2) as [| |z2] eqn:D2; try discriminate P2.
  apply is_okb_ok in A0, A2.
  destruct (new_dealing_inv toyX_ok _ _ _ _ _ _ _ (times_not_other _ _ _) E0) as [_ F0]. apply dealt_times in F0. destruct F0 as (po0 & mo0 & _ & _ & C0 & _ & _ & S0).
  destruct (new_dealing_inv toyX_ok _ _ _ _ _ _ _ (times_not_other _ _ _) E2) as [_ F2]. apply dealt_times in F2. destruct F2 as (po2 & mo2 & _ & _ & C2 & _ & _ & S2).
  set (m := fun k => if k =? 0 then nth 0 mo0 fzero else nth 0 mo2 fzero).
  set (x := fun k => spec_eval [of_Z q 5; fone] (node_x k)). set (y := fun k => fsub (m k) (fmul (x k) (of_Z q 7))).
  set (z := fun k : Z => if k =? 0 then z0 else z2).
  exists [(0, d0); (2, d2)], t, m, (fun k => (fadd (pr_challenge (z k)) fone, fadd (pr_response1 (z k)) (x k), fadd (pr_response2 (z k)) (y k))).
  split; [exact K|]. split; [reflexivity|]. split; [exact C|]. split; [exact C'|].
  split; [intros k d [E|[E|[]]]; injection E as <- <-; assumption|]. split; [exact T|].
  split.
  - intros k d [E|[E|[]]]; injection E as <- <-.
    + rewrite (C0 0%nat), S0. reflexivity.
    + rewrite (C2 0%nat), S2. reflexivity.
  - intros k d pf [E|[E|[]]] Ep; injection E as <- <-.
    + rewrite D0 in Ep. injection Ep as <-. apply (@forked2_known toyG toyL); [apply geqb_iff; vm_compute; reflexivity|]. rewrite gev_spec. apply one_term.
    + rewrite D2 in Ep. injection Ep as <-. apply (@forked2_known toyG toyL); [apply geqb_iff; vm_compute; reflexivity|]. rewrite gev_spec. apply one_term.
Qed.
