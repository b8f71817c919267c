(** Property C62: the points form a cyclic group of prime order, and the
    protocol theorems apply to it. *)
From Coq Require Import ZArith Lia Bool String List.
From Verif Require Import Base BaseFacts Zmod Fields ModelScalar ProofScalar ModelXmd ModelRo ModelPoly ModelGroup ModelCommit ModelDealing ModelKey ModelSign SpecSign
  ModelSecp SpecSecp ProofFp ProofCurve ProofAb ProofOrder ProofCodec ModelH2C ProofSecp PropSign.
From Verif Require Toy.
Import ListNotations.
Open Scope Z_scope.

(** addition of curve points is an abelian group *)
Theorem C62_abelian_group : forall a b c, on_curve a -> on_curve b -> on_curve c ->
  on_curve (pt_add a b) /\ on_curve (pt_neg a) /\
  pt_add a (pt_add b c) = pt_add (pt_add a b) c /\ pt_add a b = pt_add b a /\
  pt_add None a = a /\ pt_add a (pt_neg a) = None.
Proof.
  intros a b c Ha Hb Hc. apply curve_iff in Ha, Hb, Hc.
  split; [apply curve_iff; now apply pt_add_curve|]. split; [apply curve_iff; now apply curve_neg|].
  split; [now apply pt_add_assoc|]. split; [now apply pt_add_comm|]. split; [reflexivity|now apply pt_add_neg].
Qed.
(** every point is s G for exactly one scalar s, so there are q points *)
Theorem C62_cyclic_of_order_q : forall a, on_curve a -> exists! s : Fq, pt_mul s pt_gen = a.
Proof.
  intros a Ha. apply curve_iff in Ha. destruct (to_cpt_some a Ha) as (c & _ & <-). destruct (all_gen c) as [j E].
  assert (M : forall s : Fq, pt_mul s pt_gen = cp (csmul s cgen)) by (intros s; now rewrite csmul_cp).
  exists (of_Z q j). split.
  - rewrite M. f_equal. unfold csmul. rewrite fv_of_Z, cmul_mod. now symmetry.
  - intros s Hs. rewrite M in Hs. apply cpt_eq in Hs. unfold csmul in Hs. rewrite E in Hs.
    assert (Z0 : cmul (fv s - j) cgen = czero).
    { unfold Z.sub. rewrite (zmul_add _ _ _ L1 L2 L3 L4), (zmul_neg _ _ _ L1 L2 L3 L4), Hs. apply L4. }
    destruct (zmul_zero _ _ _ L1 L2 L3 L4 q _ _ q_prime q_gen Z0) as [D|D]; [|contradiction (cgen_nz D)].
    apply Z.mod_divide in D; [|discriminate]. destruct D as [k D].
    rewrite <- (of_Z_fv q s). apply of_Z_eq. replace (fv s) with (j + k * q) by lia. symmetry. apply Z_mod_plus_full.
Qed.
(** scalar multiplication *)
Theorem C62_scalar_multiplication : forall (s t : Fq) a b, on_curve a -> on_curve b ->
  on_curve (pt_mul s a) /\
  pt_mul (fadd s t) a = pt_add (pt_mul s a) (pt_mul t a) /\
  pt_mul (fmul s t) a = pt_mul s (pt_mul t a) /\
  pt_mul s (pt_add a b) = pt_add (pt_mul s a) (pt_mul s b) /\
  pt_mul fone a = a.
Proof.
  intros s t a b Ha Hb. apply curve_iff in Ha, Hb. destruct (to_cpt_some a Ha) as (c & _ & <-). destruct (to_cpt_some b Hb) as (d & _ & <-).
  pose proof (secpL (X := Toy.toyX) Toy.toyX_ok) as GL.
  split; [rewrite <- csmul_cp; apply curve_iff; apply cp_curve|].
  split; [rewrite <- !csmul_cp; exact (f_equal cp (@smul_add _ GL s t c))|].
  split; [rewrite <- !csmul_cp; exact (f_equal cp (@smul_mul _ GL s t c))|].
  split; [rewrite <- !csmul_cp; change (pt_add (cp c) (cp d)) with (cp (cadd' c d)); rewrite <- csmul_cp; exact (f_equal cp (@smul_gadd _ GL s c d))|].
  rewrite <- csmul_cp; exact (f_equal cp (@smul_1 _ GL c)).
Qed.
(** the group the protocol theorems quantify over can be taken to be the
    curve: the instance has the required laws and its operations are the
    modelled ones *)
Theorem C62_protocol_group : forall (X : Oracles) (HX : oracles_ok X),
  GrpLaws secpG /\
  (forall a b : G (Grp := secpG), cp (gadd a b) = pt_add (cp a) (cp b) /\ cp (gneg a) = pt_neg (cp a) /\
     geqb a b = pt_eqb (cp a) (cp b) /\ affx a = pt_x (cp a) /\ point_serialize (cp a) = Ok (ser a)) /\
  (forall (s : Fq) (a : G (Grp := secpG)), cp (smul s a) = pt_mul s (cp a)) /\
  cp (gzero (Grp := secpG)) = None /\ cp (genG (Grp := secpG)) = pt_gen /\ generator_h = Ok (Some (cp (genH (Grp := secpG)))) /\
  (forall b (a : G (Grp := secpG)), deser b = Ok a <-> point_deserialize 1 b = Ok (Some (cp a))) /\
  (forall i d (a : G (Grp := secpG)), h2p i d = Ok a <-> hash_to_curve_ro i d = Ok (cp a)) /\
  (forall a, on_curve a <-> exists g : G (Grp := secpG), cp g = a).
Proof.
  intros X HX. split; [exact (secpL HX)|].
  split; [intros a b; cbn [gadd gneg geqb affx ser secpG]; repeat split; try reflexivity; apply serialize_sec1|].
  split; [intros s a; apply csmul_cp|]. split; [reflexivity|]. split; [reflexivity|]. split; [exact generator_h_val|].
  split; [intros b a; apply lift_ok; intros r; apply point_deserialize_curve|].
  split.
  - intros i d a. destruct (secp_h2p HX i d) as (r & E1 & E2). rewrite E1, E2. split; intros H.
    + assert (r = a) as -> by (inversion H; reflexivity). reflexivity.
    + assert (E : cp r = cp a) by (inversion H; reflexivity). apply cpt_eq in E. now rewrite E.
  - intros a. rewrite curve_iff. split.
    + intros H. destruct (to_cpt_some a H) as (c & _ & E). exists c. exact E.
    + intros [g <-]. apply cp_curve.
Qed.
#[local] Existing Instance secpG.
(** for instance: what Verify accepts is an ECDSA signature on secp256k1 *)
Theorem C62_accepted_signatures_on_secp256k1 : forall (X : Oracles) (HX : oracles_ok X) pa h rnd
  (key presig : @transcript secpG) sg, blen h <= 32 ->
  sig_verify sg pa h rnd key presig = Ok tt ->
  exists pk pkb ch K w x y, on_curve pk /\ point_serialize pk = Ok pkb /\
    tr_constant_term key = Ok K /\ derive_public_key (ser K) pa = Ok (pkb, ch) /\
    fmul w (sg_s sg) = fone /\
    pt_add (pt_mul (fmul (of_Z q (bits2int h)) w) pt_gen) (pt_mul (fmul (sg_r sg) w) pk) = Some (x, y) /\
    fv x mod q = fv (sg_r sg).
Proof.
  intros X HX pa h rnd key presig sg Hh V.
  destruct (C53_accepted_signatures_are_ecdsa X HX secpG (secpL HX) pa h rnd key presig sg V) as (K & t & ch & ro & EK & _ & _ & _ & _ & _ & Ep & S).
  destruct (S Hh) as (_ & _ & w & R & Hw & HR & Nz & Hx).
  set (pk := gadd K (mul_by_g t)) in *. destruct (cp R) as [[x y]|] eqn:ER.
  2:{ exfalso. apply Nz. apply cpt_eq. exact ER. }
  exists (cp pk), (ser pk), ch, K, w, x, y. split; [apply curve_iff; apply cp_curve|]. split; [apply serialize_sec1|].
  split; [exact EK|]. split; [exact Ep|]. split; [exact Hw|]. split.
  - rewrite <- ER, HR. cbn [gadd smul genG secpG cp cadd']. rewrite !csmul_cp. reflexivity.
  - rewrite <- Hx. cbn [affx secpG]. rewrite ER. reflexivity.
Qed.
Print Assumptions C62_abelian_group.
Print Assumptions C62_cyclic_of_order_q.
Print Assumptions C62_scalar_multiplication.
Print Assumptions C62_protocol_group.
Print Assumptions C62_accepted_signatures_on_secp256k1.
Example C62_ex : on_curve pt_gen /\ oracles_ok Toy.toyX. Proof. split; [vm_compute; reflexivity|exact Toy.toyX_ok]. Qed.
