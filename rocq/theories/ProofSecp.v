(** secp256k1 as an instance of the group the protocol layers use. *)
From Coq Require Import ZArith Znumtheory Lia Bool String List Ring Field Eqdep_dec.
From Verif Require Import Base BaseFacts Zmod Fields ModelScalar ProofScalar ModelXmd ModelRo ModelGroup ModelSecp SpecSecp ProofFp ProofCurve ProofAb ProofOrder ProofCodec ModelH2C ProofSswu.
Import ListNotations.
Open Scope Z_scope.

(** a point with the check that it lies on the curve *)
Definition to_cpt (a : pt) : option cpt :=
  (if curveb a as c return curveb a = c -> option cpt then fun H => Some (mkcpt a H) else fun _ => None) eq_refl.
Lemma to_cpt_some a : curve a -> exists c, to_cpt a = Some c /\ cp c = a.
Proof.
  intros C. apply curveb_iff in C. unfold to_cpt.
  assert (E : forall b (H : curveb a = b), b = true -> exists c,
    (if b as c return curveb a = c -> option cpt then fun H => Some (mkcpt a H) else fun _ => None) H = Some c /\ cp c = a).
  { intros [|] H Hb; [eexists; split; reflexivity|discriminate Hb]. }
  exact (E _ eq_refl C).
Qed.
Lemma to_cpt_cp c : to_cpt (cp c) = Some c.
Proof. destruct (to_cpt_some (cp c) (cp_curve c)) as (d & E & H). rewrite E. f_equal. now apply cpt_eq. Qed.
(** a result on the curve *)
Definition lift (r : res (option pt)) : res cpt :=
  match r with
  | Ok (Some a) => match to_cpt a with Some c => Ok c | None => Err end
  | Ok None => Panic
  | Err => Err
  | Panic => Panic
  | Diverge => Diverge
  end.
Lemma lift_ok r c : (forall a, r = Ok (Some a) -> curve a) -> (lift r = Ok c <-> r = Ok (Some (cp c))).
Proof.
  intros Hc. split.
  - destruct r as [[a|]| | |]; cbn [lift]; try discriminate. intros H.
    destruct (to_cpt_some a (Hc a eq_refl)) as (d & E & <-). rewrite E in H. inversion H. now subst.
  - intros ->. cbn [lift]. now rewrite to_cpt_cp.
Qed.

(** the second generator *)
Definition hx : Z := 0x7bdcfc024cf697a41fd3cda2436c843af5669e50042be3314a532d5b70572f59.
Definition hy : Z := 0xd0689a54614bc1041fbb0db90411eef02d54a61ebcfe25b12741942ad3d84f1.
Definition cgenH : cpt.
Proof. refine (mkcpt (Some (of_Z p hx, of_Z p hy)) _). vm_cast_no_check (eq_refl true). Defined.
Lemma generator_h_val : generator_h = Ok (Some (cp cgenH)).
Proof.
  unfold generator_h.
  assert (E : be_bytes 33 0x037bdcfc024cf697a41fd3cda2436c843af5669e50042be3314a532d5b70572f59 = 3 :: be_bytes 32 hx) by (vm_compute; reflexivity).
  rewrite E, point_deserialize_compressed by (auto using be_bytes_length).
  rewrite (decompress_unique (of_Z p hx) (of_Z p hy)); [reflexivity|auto| | |].
  - unfold fp_of_big. f_equal; vm_compute; reflexivity.
  - exact (cp_curve cgenH).
  - vm_compute. reflexivity.
Qed.
Lemma cgenH_nz : cgenH <> czero. Proof. intros H. apply (f_equal cp) in H. discriminate H. Qed.

(** ScalarMul *)
Definition csmul (s : Fq) (a : cpt) : cpt := cmul (fv s) a.
Lemma csmul_cp s a : cp (csmul s a) = pt_mul s (cp a).
Proof.
  unfold csmul, pt_mul, zmul. pose proof (Fq_range s). destruct (fv s) as [|n|n]; [reflexivity| |lia].
  clear. induction n as [n IH|n IH|]; cbn [pmul pt_mul_pos]; cbv zeta; cbn [cp cadd']; now rewrite ?IH.
Qed.
Definition ceqb (a b : cpt) : bool := pt_eqb (cp a) (cp b).
Lemma pt_eqb_iff a b : pt_eqb a b = true <-> a = b.
Proof.
  destruct a as [[x y]|], b as [[x' y']|]; cbn [pt_eqb]; split; intros H; try discriminate H; try reflexivity.
  - apply andb_true_iff in H. destruct H as [H1 H2]. apply feqb_eq in H1, H2. now subst.
  - inversion H. now rewrite !feqb_refl.
Qed.

Section Instance.
Context {X : Oracles}.
(** the concrete group: curve/point.go and curve/k256_point.go as modelled in
    [ModelSecp] and [ModelH2C], restricted to points of the curve *)
Definition secpG : Grp := {|
  G := cpt;
  gzero := czero;
  gadd := cadd';
  gneg := cneg;
  smul := csmul;
  geqb := ceqb;
  genG := cgen;
  genH := cgenH;
  ser a := sec1 (cp a);
  deser b := lift (point_deserialize 1 b);
  affx a := pt_x (cp a);
  h2p i d := match hash_to_curve_ro i d with Ok r => lift (Ok (Some r)) | Err => Err | Panic => Panic | Diverge => Diverge end
|}.

Lemma cmul_mod n a : cmul (n mod q) a = cmul n a.
Proof. apply (zmul_mod _ _ _ L1 L2 L3 L4); [discriminate|apply q_all]. Qed.
Lemma secp_h2p (HX : oracles_ok X) i d : exists r : cpt, hash_to_curve_ro i d = Ok (cp r) /\ h2p (Grp := secpG) i d = Ok r.
Proof.
  destruct (h2c_spec HX i d) as (o & x0 & y0 & x1 & y1 & _ & _ & _ & E0 & E1 & H).
  cbn [h2p secpG]. rewrite H. destruct (to_cpt_some _ (pt_add_curve (Some (x0, y0)) (Some (x1, y1)) E0 E1)) as (c & E & <-).
  exists c. split; [reflexivity|]. cbn [lift]. now rewrite to_cpt_cp.
Qed.
Lemma secpL (HX : oracles_ok X) : GrpLaws secpG.
Proof.
  constructor; cbn [G gzero gadd gneg smul geqb genG genH ser deser affx secpG].
  - exact cadd'_assoc.
  - exact cadd'_comm.
  - exact cadd'_0_l.
  - exact cadd'_neg.
  - intros x y a. unfold csmul. change (fv (fadd x y)) with ((fv x + fv y) mod q). rewrite cmul_mod. apply (zmul_add _ _ _ L1 L2 L3 L4).
  - intros x y a. unfold csmul. change (fv (fmul x y)) with ((fv x * fv y) mod q). rewrite cmul_mod. apply (zmul_mul _ _ _ L1 L2 L3 L4).
  - intros x a b. apply (zmul_gadd _ _ _ L1 L2 L3 L4).
  - reflexivity.
  - intros a b. unfold ceqb. rewrite pt_eqb_iff. split; [apply cpt_eq|now intros ->].
  - exact cgen_nz.
  - exact cgenH_nz.
  - intros a. unfold blen. rewrite sec1_length. reflexivity.
  - intros a. apply sec1_ok.
  - intros a b E. apply cpt_eq. apply sec1_inj; [apply cp_curve..|exact E].
  - intros a. rewrite (deserialize_sec1 _ (cp_curve a)). cbn [lift]. now rewrite to_cpt_cp.
  - intros a b E Na Nb. pose proof (cp_curve a) as Ca. pose proof (cp_curve b) as Cb.
    destruct (cp a) as [[x y]|] eqn:Ea; [|exfalso; apply Na; apply cpt_eq; exact Ea].
    destruct (cp b) as [[x' y']|] eqn:Eb; [|exfalso; apply Nb; apply cpt_eq; exact Eb].
    cbn [pt_x] in E. subst x'. cbn [curve] in Ca, Cb. destruct (eqn_same_x _ _ _ Ca Cb) as [->| ->].
    + left. apply cpt_eq. congruence.
    + right. apply cpt_eq. cbn [cp cneg]. rewrite Ea, Eb. reflexivity.
  - intros a. cbn [cp cneg]. destruct (cp a) as [[x y]|]; reflexivity.
  - reflexivity.
  - intros i d. destruct (secp_h2p HX i d) as (r & _ & E). exists r. exact E.
Qed.
End Instance.
