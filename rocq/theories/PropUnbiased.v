(** Properties C84 and C85: the secret of a random transcript, and what a
    derived private key gives away. *)
From Coq Require Import ZArith Lia Bool String List Ring Field.
From Verif Require Import Base BaseFacts Zmod Fields ModelScalar ProofScalar ModelXmd ModelRo SpecPoly ModelPoly ProofPoly
  ProofLagrange ProofSecrecy ModelGroup GroupFacts SpecGroup ModelCommit ProofCommit ModelZk ProofZk ModelMega
  ModelDealing SpecDealing ProofDealing ProofTranscript ProofHonest SpecMalicious PropDealing PropHiding PropMalicious PropSimulate ModelKey SpecKey ProofKey ProofSign PropKey Toy.
Import ListNotations.
Open Scope Z_scope.

Section Sums.
Context {X : Oracles} {GO : Grp} {GL : GrpLaws GO}.
Lemma gsum_pedersen {A} (f g : A -> Fq) l : gsum (map (fun a => pedersen (f a) (g a)) l) = pedersen (fsum (map f l)) (fsum (map g l)).
Proof. unfold pedersen, mul_points. rewrite (gsum_map_add (fun a => smul (f a) genG) (fun a => smul (g a) genH)), !gsum_map_scal. reflexivity. Qed.
Lemma pedersen_binds v m v' m' : pedersen v m = pedersen v' m' -> (v = v' /\ m = m') \/ log_found v m v' m'.
Proof.
  intros E. destruct (feqb v v') eqn:Ev; [|right; apply pedersen_collision; [exact E|apply feqb_neq in Ev; congruence]].
  destruct (feqb m m') eqn:Em; [left|right; apply pedersen_collision; [exact E|apply feqb_neq in Em; congruence]].
  split; apply (proj1 (feqb_eq _ _ _)); assumption.
Qed.
Lemma poly_add_inj a b d : length a = length b -> poly_add a d = poly_add b d -> a = b.
Proof.
  intros L E. apply (nth_ext a b fzero fzero L). intros n _. apply (f_equal (fun l => nth n l fzero)) in E. rewrite !poly_add_nth in E.
  assert (Q : nth n a fzero = fsub (fadd (nth n a fzero) (nth n d fzero)) (nth n d fzero)) by ring. rewrite Q, E. ring.
Qed.
End Sums.

(** C84 *)
(** One honest dealer suffices.  The others, with fewer than [t] nodes among
    them, may choose what they deal after seeing the honest dealer's commitment
    and their own openings of it: whatever their strategy [adv], the sum is every
    value for equally many of the honest dealer's choices, with the same view. *)
Theorem C84_unbiased :
  forall (GO : Grp) (GL : GrpLaws GO) alpha t idx (adv : res commitment * list opening -> Fq) s s',
  genH = smul alpha genG -> alpha <> fzero -> coalition t idx ->
  exists d e, length d = t /\ length e = t /\
    (forall po mo, length po = t -> length mo = t ->
       fadd (spec_eval po fzero) (adv (view idx po mo)) = s ->
       fadd (spec_eval (poly_add po d) fzero) (adv (view idx (poly_add po d) (poly_add mo e))) = s' /\
       view idx (poly_add po d) (poly_add mo e) = view idx po mo) /\
    (forall po mo po2 mo2, length po = t -> length po2 = t -> length mo = t -> length mo2 = t ->
       poly_add po d = poly_add po2 d -> poly_add mo e = poly_add mo2 e -> po = po2 /\ mo = mo2).
Proof.
  intros GO GL alpha t idx adv s s' EH Na Hc. destruct (nodes_ok t idx Hc) as [Nd Nz].
  destruct (sharing_exists t (fsub s' s) (map (fun i => (node_x i, fzero)) idx)) as (d & Ld & Sd & Pd);
    [rewrite map_map; exact Nd|rewrite map_map; exact Nz|rewrite map_length; apply Hc|].
  assert (Zd : forall i, In i idx -> spec_eval d (node_x i) = fzero).
  { intros i Hi. apply (Pd (node_x i, fzero)). apply in_map_iff. exists i. auto. }
  exists d, (mask_shift alpha d). split; [exact Ld|]. split; [rewrite mask_shift_length; exact Ld|]. split.
  - intros po mo Lp Lm Hs. pose proof (shift_view alpha EH Na t idx d po mo Ld Zd Lp Lm) as V.
    split; [|exact V]. rewrite V, spec_eval_add, Sd, <- Hs. ring.
  - intros po mo po2 mo2 L1 L2 L3 L4 E1 E2. split; [apply (poly_add_inj _ _ d); congruence|apply (poly_add_inj _ _ (mask_shift alpha d)); congruence].
Qed.
(** the code's random transcript commits to the sum of what was dealt, and what
    a receiver puts together is their share of the sum, or two openings of one
    commitment that give the logarithm of H *)
Theorem C84_transcript_is_sum : forall (X : Oracles) (GO : Grp) (GL : GrpLaws GO) threshold ds t (po mo : Z -> list Fq),
  keys_ok ds -> 0 < threshold -> new_transcript threshold ds TRandom = Ok t ->
  (forall k d, In (k, d) ds -> commits2 (pts_of (d_cm d)) (po k) (mo k)) ->
  tr_constant_term t = Ok (pedersen (fsum (map (fun kd => spec_eval (po (fst kd)) fzero) ds)) (fsum (map (fun kd => spec_eval (mo (fst kd)) fzero) ds))) /\
  (forall i, tr_eval t i = Ok (pedersen (fsum (map (fun kd => spec_eval (po (fst kd)) (node_x i)) ds)) (fsum (map (fun kd => spec_eval (mo (fst kd)) (node_x i)) ds)))) /\
  (forall ad i sk pk o, from_dealings ds (tr_commitment t) ad i sk pk = Ok o -> exists v m, o = OPedersen v m /\
     let v' := fsum (map (fun kd => spec_eval (po (fst kd)) (node_x i)) ds) in
     let m' := fsum (map (fun kd => spec_eval (mo (fst kd)) (node_x i)) ds) in v = v' /\ m = m' \/ log_found v m v' m').
Proof.
  intros X GO GL th ds t po mo K Hth T C.
  apply new_transcript_shape in T; [|exact K|lia|discriminate]. destruct T as (l & Ll & Et & Sp).
  assert (Nl : l <> []) by (intros ->; cbn [length] in Ll; lia).
  assert (Ev : forall x, gev l x = pedersen (fsum (map (fun kd => spec_eval (po (fst kd)) x) ds)) (fsum (map (fun kd => spec_eval (mo (fst kd)) x) ds))).
  { intros x. rewrite Sp. rewrite <- (gsum_pedersen (fun kd => spec_eval (po (fst kd)) x) (fun kd => spec_eval (mo (fst kd)) x)).
    apply gsum_map_ext. intros [k d] Hin. unfold dl_pts. cbn [fst snd]. rewrite (commits2_gev _ _ _ x (C k d Hin)), <- !pev_spec. reflexivity. }
  split; [|split].
  - unfold tr_constant_term, c_constant_term, c_points. rewrite Et. cbn [unwrap]. rewrite bind_Ok, <- Ev, gev_0. destruct l; [congruence|reflexivity].
  - intros i. unfold tr_eval, c_eval, c_points. rewrite Et. cbn [unwrap]. rewrite bind_Ok, eval_points_gev by exact Nl. rewrite Ev, node_x_eq. reflexivity.
  - intros ad i sk pk o Ho. apply from_dealings_sound in Ho. assert (U : unwrap (tr_commitment t) = CPedersen l) by (rewrite Et; reflexivity).
    destruct (check_true_pedersen _ _ _ _ U Ho) as (Eo & _ & Eg). exists (oval o), (omask o). split; [exact Eo|]. cbv zeta.
    rewrite Ev, node_x_eq in Eg. symmetry in Eg.
    match type of Eg with pedersen ?v ?m = pedersen ?v' ?m' => destruct (pedersen_binds v m v' m' Eg) as [H|H] end; [left; exact H|right; exact H].
Qed.
Print Assumptions C84_unbiased.
Print Assumptions C84_transcript_is_sum.
(** two dealings with constant terms 5 and 11 *)
Example C84_ex : exists t,
  let dl a b := mkdealing (GO := toyG) (MPair genG genG (mkdlog fone fone) []) (CPedersen [pedersen (of_Z q a) (of_Z q b); pedersen fone (of_Z q a)]) PNone in
  let ds := [(0, dl 5 7); (2, dl 11 13)] in
  let po k := if k =? 0 then [of_Z q 5; fone] else [of_Z q 11; fone] in
  let mo k := if k =? 0 then [of_Z q 7; of_Z q 5] else [of_Z q 13; of_Z q 11] in
  keys_ok ds /\ new_transcript 2 ds TRandom = Ok t /\
  (forall k d, In (k, d) ds -> commits2 (pts_of (d_cm d)) (po k) (mo k)) /\
  tr_constant_term t = Ok (pedersen (of_Z q 16) (of_Z q 20)).
Proof.
  eexists. intros dl ds po mo. split; [split; cbn [ds map fst]; [repeat constructor; unfold int64_ok; lia|repeat constructor; cbn; intuition discriminate]|].
  split; [reflexivity|]. split.
  - intros k d [E|[E|[]]]; injection E as <- <-; intros [|[|[|i]]]; apply fe_eq; reflexivity.
  - cbn. apply f_equal. apply fe_eq. vm_compute. reflexivity.
Qed.
Example C84_ex_coalition : coalition 2 [1].
Proof. split; [repeat constructor; lia|]. split; [repeat constructor; cbn [In]; lia|cbn; lia]. Qed.

(** C85 *)
(** what an outsider does with the master public key, two paths and the private
    key of the first *)
Definition other_key {X : Oracles} {GO : Grp} (master : bytes) (pa pb : path) (x : Fq) : res Fq :=
  do pk <- deser master; do t1 <- derive_tweak pa pk; do t2 <- derive_tweak pb pk; Ok (fadd (fsub x (fst t1)) (fst t2)).
Theorem C85_one_derived_key_gives_all :
  forall (X : Oracles) (HX : oracles_ok X) (GO : Grp) (GL : GrpLaws GO) master pa pb x K1 c1 K2 c2,
  derive_public_key master pa = Ok (K1, c1) -> derive_public_key master pb = Ok (K2, c2) -> K1 = ser (mul_by_g x) ->
  exists y, other_key master pa pb x = Ok y /\ K2 = ser (mul_by_g y).
Proof.
  intros X HX GO GL master pa pb x K1 c1 K2 c2 E1 E2 Ex. unfold derive_public_key, other_key in *.
  apply bind_inv in E1, E2. destruct E1 as (pk & Ep & E1), E2 as (pk' & Ep' & E2). rewrite Ep in Ep'. apply Ok_inj in Ep'. subst pk'.
  apply bind_inv in E1, E2. destruct E1 as ([t1 d1] & Et1 & E1), E2 as ([t2 d2] & Et2 & E2). cbn [fst snd] in *.
  rewrite Ep, bind_Ok, Et1, bind_Ok, Et2, bind_Ok. cbn [fst]. eexists. split; [reflexivity|].
  apply Ok_inj in E1, E2. apply (f_equal fst) in E1, E2. cbn [fst] in E1, E2. rewrite <- E2. f_equal.
  rewrite Ex in E1. apply ser_inj in E1. unfold mul_by_g in *.
  assert (P : pk = smul (fsub x t1) genG).
  { apply (gadd_cancel_l (smul t1 genG)). rewrite E1, <- smul_add. f_equal. ring. }
  rewrite P, <- smul_add. f_equal. ring.
Qed.
(** in particular the master private key itself *)
Theorem C85_one_derived_key_gives_master :
  forall (X : Oracles) (HX : oracles_ok X) (GO : Grp) (GL : GrpLaws GO) sk pa x K1 c1,
  derive_public_key (ser (mul_by_g sk)) pa = Ok (K1, c1) -> K1 = ser (mul_by_g x) ->
  other_key (ser (mul_by_g sk)) pa [] x = Ok sk.
Proof.
  intros X HX GO GL sk pa x K1 c1 E1 Ex.
  destruct (C85_one_derived_key_gives_all X HX GO GL (ser (mul_by_g sk)) pa [] x K1 c1 (ser (mul_by_g sk)) (repeat 0 32) E1) as (y & Ey & Q); [|exact Ex|].
  - unfold derive_public_key, derive_tweak. rewrite deser_ser, bind_Ok. cbn [tweak_loop]. rewrite bind_Ok. cbn [fst snd]. unfold mul_by_g. rewrite smul_zero, gadd_0_l. reflexivity.
  - apply ser_inj, mul_by_g_inj in Q. rewrite <- Q in Ey. exact Ey.
Qed.
Print Assumptions C85_one_derived_key_gives_all.
Print Assumptions C85_one_derived_key_gives_master.
Example C85_ex : is_ok (derive_public_key (X := toyX) (GO := toyG) (ser (mul_by_g (of_Z q 5))) (new_bip32 [1; 2])) = true.
Proof. vm_compute. reflexivity. Qed.
