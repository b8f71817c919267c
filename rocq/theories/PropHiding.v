(** Property C76: a masked dealing tells fewer nodes than the threshold nothing
    about the secret. *)
From Coq Require Import ZArith Lia Bool String List Ring Field.
From Verif Require Import Base BaseFacts Zmod Fields ModelScalar ProofScalar ModelXmd ModelRo SpecPoly ModelPoly ProofPoly ProofLagrange ProofSecrecy
  ModelGroup GroupFacts SpecGroup ModelCommit ProofCommit PropPoly ModelSecp ProofOrder ProofSecp Toy.
Import ListNotations.
Open Scope Z_scope.

(** what the nodes [idx] see of a dealing with the polynomials [po] and [mo]:
    the commitment and their own openings
    (no code of /repo is modelled here) *)
Definition view {GO : Grp} (idx : list Z) (po mo : list Fq) : res commitment * list opening :=
  (pedersen_create po mo (Z.of_nat (length po)), map (fun i => OPedersen (spec_eval po (node_x i)) (spec_eval mo (node_x i))) idx).
Definition simple_view {GO : Grp} (po : list Fq) : res commitment := simple_create po (Z.of_nat (length po)).
(** fewer than [t] different node indices *)
Definition coalition (t : nat) (idx : list Z) : Prop := Forall (fun i => 0 <= i < 2^63) idx /\ NoDup idx /\ (length idx < t)%nat.

Section Hide.
Context {GO : Grp} {GL : GrpLaws GO}.

Lemma view_nth t po mo po' mo' idx : length po = t -> length mo = t -> length po' = t -> length mo' = t ->
  (view idx po mo = view idx po' mo' <->
   (forall n, pedersen (nth n po fzero) (nth n mo fzero) = pedersen (nth n po' fzero) (nth n mo' fzero)) /\
   (forall i, In i idx -> spec_eval po (node_x i) = spec_eval po' (node_x i) /\ spec_eval mo (node_x i) = spec_eval mo' (node_x i))).
Proof.
  intros L1 L2 L3 L4. unfold view.
  assert (B : forall l, length l = t -> coeffs_below (Z.to_nat (Z.of_nat t)) l) by (intros l Hl; apply coeffs_below_length; lia).
  rewrite L1, L3.
  destruct (pedersen_create_spec po mo (Z.of_nat t) (B _ L1) (B _ L2) ltac:(lia)) as (l & E & Ll & C).
  destruct (pedersen_create_spec po' mo' (Z.of_nat t) (B _ L3) (B _ L4) ltac:(lia)) as (l' & E' & Ll' & C').
  rewrite E, E'. unfold commits2 in C, C'. split.
  - intros H. apply pair_equal_spec in H. destruct H as [H1 H2]. injection H1 as H1. subst l'. split.
    + intros n. unfold pedersen, mul_points. rewrite <- C, <- C'. reflexivity.
    + intros i Hi. revert H2 Hi. clear. induction idx as [|j idx IH]; intros H [].
      * subst j. cbn [map] in H. injection H as H1 H2 _. auto.
      * cbn [map] in H. injection H as _ _ H. apply IH; assumption.
  - intros [H1 H2]. apply pair_equal_spec. split.
    + do 2 f_equal. apply (nth_ext l l' gzero gzero); [congruence|]. intros n _. rewrite C, C'. apply H1.
    + apply map_ext_in. intros i Hi. destruct (H2 i Hi) as [-> ->]. reflexivity.
Qed.

Lemma nodes_ok t idx : coalition t idx -> NoDup (map node_x idx) /\ ~ In fzero (map node_x idx).
Proof.
  intros (F & N & _). assert (E : map node_x idx = map from_node_index idx) by (apply map_ext; intros; symmetry; apply node_x_eq).
  rewrite E. apply C28_node_abscissae; assumption.
Qed.

Lemma pedersen_shift alpha a b d : genH = smul alpha genG -> alpha <> fzero ->
  pedersen (fadd a d) (fsub b (fdiv d alpha)) = pedersen a b.
Proof.
  intros EH Na. unfold pedersen, mul_points. rewrite EH, <- !smul_mul, <- !smul_add. f_equal. field. exact Na.
Qed.
Lemma pedersen_shift_inv alpha a b a' b' : genH = smul alpha genG -> alpha <> fzero ->
  pedersen a b = pedersen a' b' -> b' = fsub b (fdiv (fsub a' a) alpha).
Proof.
  intros EH Na. unfold pedersen, mul_points. rewrite EH, <- !smul_mul, <- !smul_add. intros H. apply smul_inj_l in H; [|apply genG_nz].
  assert (E : b' = fdiv (fsub (fadd a' (fmul b' alpha)) a') alpha) by (field; exact Na). rewrite E, <- H. field. exact Na.
Qed.
Lemma poly_add_nth a b n : nth n (poly_add a b) fzero = fadd (nth n a fzero) (nth n b fzero).
Proof. exact (poly_add_coeff a b n). Qed.
Lemma spec_eval_add a b x : spec_eval (poly_add a b) x = fadd (spec_eval a x) (spec_eval b x).
Proof. rewrite !pev_spec. apply poly_add_pev. Qed.

(** the fixed translation between the sharings of two secrets *)
Lemma shift_exists alpha t idx s s' : genH = smul alpha genG -> alpha <> fzero -> coalition t idx ->
  exists d e, length d = t /\ length e = t /\ forall po mo, length po = t -> length mo = t -> spec_eval po fzero = s ->
    spec_eval (poly_add po d) fzero = s' /\ view idx (poly_add po d) (poly_add mo e) = view idx po mo.
Proof.
  intros EH Na Hc. destruct (nodes_ok t idx Hc) as [Nd Nz].
  destruct (sharing_exists t (fsub s' s) (map (fun i => (node_x i, fzero)) idx)) as (d & Ld & Sd & Pd);
    [rewrite map_map; exact Nd|rewrite map_map; exact Nz|rewrite map_length; apply Hc|].
  assert (Zd : forall i, In i idx -> spec_eval d (node_x i) = fzero).
  { intros i Hi. apply (Pd (node_x i, fzero)). apply in_map_iff. exists i. auto. }
  exists d, (pscale (fneg (finv alpha)) d). split; [exact Ld|].
  assert (Le : length (pscale (fneg (finv alpha)) d) = t) by (unfold pscale; rewrite map_length; exact Ld). split; [exact Le|].
  intros po mo Lp Lm Hs. split; [rewrite spec_eval_add, Hs, Sd; ring|].
  apply (view_nth t); try assumption; try (rewrite poly_add_length; lia). split.
  - intros n. rewrite !poly_add_nth. assert (E : nth n (pscale (fneg (finv alpha)) d) fzero = fneg (fdiv (nth n d fzero) alpha)).
    { change (coeff (pscale (fneg (finv alpha)) d) n = fneg (fdiv (coeff d n) alpha)). rewrite pscale_coeff. field. exact Na. }
    rewrite E. rewrite <- (pedersen_shift alpha (nth n po fzero) (nth n mo fzero) (nth n d fzero) EH Na). f_equal. ring.
  - intros i Hi. rewrite !spec_eval_add, (Zd i Hi). split; [ring|].
    rewrite (pev_spec (pscale _ _)), pscale_pev, <- pev_spec, (Zd i Hi). ring.
Qed.

Lemma view_unique alpha t idx po mo po' mo' : genH = smul alpha genG -> alpha <> fzero -> coalition t idx -> S (length idx) = t ->
  length po = t -> length mo = t -> length po' = t -> length mo' = t ->
  view idx po mo = view idx po' mo' -> spec_eval po fzero = spec_eval po' fzero -> po = po' /\ mo = mo'.
Proof.
  intros EH Na Hc Ht L1 L2 L3 L4 V S. destruct (nodes_ok t idx Hc) as [Nd Nz].
  apply (view_nth t) in V; try assumption. destruct V as [V1 V2].
  assert (E : po = po').
  { apply (sharing_unique t (spec_eval po fzero) (map (fun i => (node_x i, spec_eval po (node_x i))) idx)).
    - rewrite map_map. exact Nd.
    - rewrite map_map. exact Nz.
    - rewrite map_length. lia.
    - split; [exact L1|]. split; [reflexivity|]. intros p Hp. apply in_map_iff in Hp. destruct Hp as (i & <- & Hi). reflexivity.
    - split; [exact L3|]. split; [symmetry; exact S|]. intros p Hp. apply in_map_iff in Hp. destruct Hp as (i & <- & Hi). cbn [fst snd]. symmetry. apply V2, Hi. }
  split; [exact E|]. subst po'. apply (nth_ext mo mo' fzero fzero); [congruence|]. intros n _. symmetry.
  rewrite (pedersen_shift_inv alpha _ _ _ _ EH Na (V1 n)). field. exact Na.
Qed.
End Hide.

(** C76 *)
(** one fixed translation of the dealer's random choices turns every dealing of
    [s] into a dealing of [s'] that looks the same to the nodes, and is undone by
    the translation back: every view is equally likely for [s] and [s'] *)
Theorem C76_masked_view_independent_of_secret :
  forall (GO : Grp) (GL : GrpLaws GO) alpha t idx s s', genH = smul alpha genG -> alpha <> fzero -> coalition t idx ->
  exists d e, length d = t /\ length e = t /\ forall po mo, length po = t -> length mo = t -> spec_eval po fzero = s ->
    spec_eval (poly_add po d) fzero = s' /\ view idx (poly_add po d) (poly_add mo e) = view idx po mo.
Proof. intros GO GL. exact shift_exists. Qed.
(** with one node less than the threshold the view and the secret leave nothing open *)
Theorem C76_exactly_one_explanation :
  forall (GO : Grp) (GL : GrpLaws GO) alpha t idx po mo s', genH = smul alpha genG -> alpha <> fzero -> coalition t idx -> S (length idx) = t ->
  length po = t -> length mo = t ->
  exists! e, length (fst e) = t /\ length (snd e) = t /\ spec_eval (fst e) fzero = s' /\ view idx (fst e) (snd e) = view idx po mo.
Proof.
  intros GO GL alpha t idx po mo s' EH Na Hc Ht Lp Lm.
  destruct (shift_exists alpha t idx (spec_eval po fzero) s' EH Na Hc) as (d & e & Ld & Le & H). destruct (H po mo Lp Lm eq_refl) as [H1 H2].
  assert (A : length (poly_add po d) = t) by (rewrite poly_add_length; lia). assert (B : length (poly_add mo e) = t) by (rewrite poly_add_length; lia).
  exists (poly_add po d, poly_add mo e). cbn [fst snd]. split; [auto|].
  intros [po' mo'] (L1 & L2 & S & V). cbn [fst snd] in *.
  destruct (view_unique alpha t idx (poly_add po d) (poly_add mo e) po' mo') as [-> ->]; try assumption; [congruence|congruence|reflexivity].
Qed.
(** on the curve the discrete logarithm of H exists, so the two theorems apply *)
Theorem C76_on_secp256k1 : forall (X : Oracles), exists alpha : Fq, genH (Grp := secpG) = smul alpha genG /\ alpha <> fzero.
Proof.
  intros X. destruct (all_gen (genH (Grp := secpG))) as [j E]. exists (of_Z q j).
  assert (E' : genH (Grp := secpG) = smul (of_Z q j) genG) by (cbn [smul genG secpG]; unfold csmul; rewrite fv_of_Z, cmul_mod; exact E).
  split; [exact E'|]. intros Z. rewrite Z in E'. apply cgenH_nz. exact E'.
Qed.
(** an unmasked dealing, in contrast, determines everything *)
Theorem C76_unmasked_hides_refuted :
  forall (GO : Grp) (GL : GrpLaws GO) po po', length po = length po' -> simple_view po = simple_view po' -> po = po'.
Proof.
  intros GO GL po po' L H. unfold simple_view in H. rewrite <- L in H.
  destruct (simple_create_spec po (Z.of_nat (length po))) as (l & E & Ll & C); [apply coeffs_below_length; lia|lia|].
  destruct (simple_create_spec po' (Z.of_nat (length po))) as (l' & E' & Ll' & C'); [apply coeffs_below_length; lia|lia|].
  rewrite E, E' in H. injection H as H. subst l'. apply (nth_ext po po' fzero fzero L). intros n _. apply (smul_inj_l _ _ genG genG_nz).
  rewrite <- (C n), <- (C' n). reflexivity.
Qed.
Print Assumptions C76_masked_view_independent_of_secret.
Print Assumptions C76_exactly_one_explanation.
Print Assumptions C76_on_secp256k1.
Print Assumptions C76_unmasked_hides_refuted.
Example C76_ex_coalition : coalition 3 [0; 4].
Proof. split; [repeat constructor; lia|]. split; [repeat constructor; cbn [In]; lia|cbn; lia]. Qed.
Example C76_ex_log : exists alpha : Fq, genH (Grp := toyG) = smul alpha genG /\ alpha <> fzero.
Proof.
  assert (N : of_Z q 3 <> fzero) by (intros Q; apply (f_equal fv) in Q; vm_compute in Q; discriminate).
  exists (fdiv (of_Z q 1000003) (of_Z q 3)). cbn [genH genG smul toyG]. split.
  - change (of_Z q 1000003 = fmul (fdiv (of_Z q 1000003) (of_Z q 3)) (of_Z q 3)). field. exact N.
  - intros Q. assert (E : of_Z q 1000003 = fmul (fdiv (of_Z q 1000003) (of_Z q 3)) (of_Z q 3)) by (field; exact N). rewrite Q in E.
    apply (f_equal fv) in E. vm_compute in E. discriminate.
Qed.
