(** The simplified SWU map and hash to curve. *)
From Coq Require Import ZArith Lia Bool String List Ring Field Field_theory.
From Verif Require Import Base BaseFacts Zmod Fields ModelScalar ProofScalar ModelXmd ProofXmd SpecXmd ModelSecp SpecSecp ProofFp ProofCurve ProofCodec SpecH2C ModelH2C ProofH2C.
Import ListNotations.
Open Scope Z_scope.

(** the simplified SWU map *)
Lemma cmov_sign (u y : Fp) : y <> fzero ->
  sgn0 (cmov (fneg y) y (Z.lxor (Z.lxor (fe_sign u) (fe_sign y)) 1 =? 1)) = sgn0 u.
Proof.
  intros N. rewrite !fe_sign_spec. pose proof (neg_parity y N) as P. fold (sgn0 y) (sgn0 (fneg y)) in P.
  assert (U : sgn0 u = 0 \/ sgn0 u = 1) by (unfold sgn0; pose proof (Z.mod_pos_bound (fv u) 2); lia).
  assert (Y : sgn0 y = 0 \/ sgn0 y = 1) by (unfold sgn0; pose proof (Z.mod_pos_bound (fv y) 2); lia).
  unfold cmov. destruct U as [U|U], Y as [Y|Y]; rewrite U, Y; 
    (match goal with |- context [if ?c then _ else _] => let v := eval vm_compute in c in change c with v end); cbv iota; lia.
Qed.
Lemma cmov_sq (y : Fp) e : fmul (cmov (fneg y) y e) (cmov (fneg y) y e) = fmul y y.
Proof. destruct e; cbn [cmov]; ring. Qed.

Lemma fneg_nz (a : Fp) : a <> fzero -> fneg a <> fzero.
Proof. intros N E. apply N. replace a with (fneg (fneg a)) by ring. rewrite E. ring. Qed.

Section Sswu.
(** the algebra, for any constants *)
Context (a b z u : Fp) (Na : a <> fzero) (Nz : z <> fzero).
Let g x := fadd (fadd (fmul (fmul x x) x) (fmul a x)) b.
Let w := fmul z (fmul u u).
Let t := fadd (fmul w w) w.
Let n := fmul (fadd t fone) b.
Let d := fmul (cmov z (fneg t) (negb (feqb t fzero))) a.
Let U := fadd (fmul (fadd (fmul n n) (fmul (fmul d d) a)) n) (fmul (fmul (fmul d d) d) b).
Let V := fmul (fmul d d) d.
Lemma d_nz : d <> fzero.
Proof.
  unfold d. apply fp_neq0; [|exact Na]. destruct (feqb t fzero) eqn:E; cbn [negb cmov]; [exact Nz|].
  apply feqb_neq in E. intros F. apply E. replace t with (fneg (fneg t)) by ring. rewrite F. ring.
Qed.
Lemma V_nz : V <> fzero. Proof. pose proof d_nz. unfold V. clearbody d. repeat apply fp_neq0; assumption. Qed.
Lemma g_frac : fmul (g (fmul n (finv d))) V = U.
Proof. pose proof d_nz as N. unfold g, V, U. clearbody n d. field. exact N. Qed.
Lemma x1_frac : (if feqb t fzero then fdiv b (fmul z a) else fmul (fdiv (fneg b) a) (fadd fone (finv t))) = fmul n (finv d).
Proof.
  unfold n, d. destruct (feqb t fzero) eqn:E; cbn [negb cmov].
  - apply feqb_eq in E. rewrite E. field. auto.
  - apply feqb_neq in E. clearbody t. field. auto using fneg_nz.
Qed.
Lemma x2_alg : t <> fzero -> g (fmul w (fmul n (finv d))) = fmul (fmul (fmul w w) w) (g (fmul n (finv d))).
Proof.
  intros N. unfold n, d. rewrite (proj2 (feqb_neq _ _ _) N). cbn [negb cmov]. unfold g, t in *. clearbody w. field. auto using fneg_nz.
Qed.
End Sswu.

Local Opaque finv fpow fmul fadd fneg fsub iso_g iso_A iso_B sswu_Z.
Lemma sswu_spec u : exists x y, sswu u = Ok (x, y) /\ rfc_sswu u x y.
Proof.
  unfold sswu. rewrite sa_eq, sb_eq, sz_eq. cbv zeta.
  pose proof (V_nz iso_A iso_B sswu_Z u A_nz Z_nz) as HV. pose proof (d_nz iso_A iso_B sswu_Z u A_nz Z_nz) as Hd.
  pose proof (g_frac iso_A iso_B sswu_Z u A_nz Z_nz) as HG. pose proof (x1_frac iso_A iso_B sswu_Z u A_nz Z_nz) as HX1.
  pose proof (x2_alg iso_A iso_B sswu_Z u A_nz) as HX2. cbv zeta in *.
  set (w := fmul sswu_Z (fmul u u)) in *. set (t := fadd (fmul w w) w) in *. set (n := fmul (fadd t fone) iso_B) in *.
  set (d := fmul (cmov sswu_Z (fneg t) (negb (feqb t fzero))) iso_A) in *. set (V := fmul (fmul d d) d) in *.
  set (U := fadd (fmul (fadd (fmul n n) (fmul (fmul d d) iso_A)) n) (fmul V iso_B)) in *.
  assert (X1 : sswu_x1 u = fmul n (finv d)).
  { rewrite <- HX1. unfold sswu_x1.
    replace (fadd (fmul (fmul sswu_Z sswu_Z) (fmul (fmul (fmul u u) u) u)) (fmul sswu_Z (fmul u u))) with t by (unfold t, w; ring). reflexivity. }
  change (fmul (iso_g (fmul n (finv d))) V = U) in HG.
  change (t <> fzero -> iso_g (fmul w (fmul n (finv d))) = fmul (fmul (fmul w w) w) (iso_g (fmul n (finv d)))) in HX2.
  destruct (sqrt_ratio_spec U V HV) as (y1 & [[-> Q]|(-> & Q & NS)]); cbn [bind].
  - cbn [cmov]. eexists _, _. split; [reflexivity|]. unfold rfc_sswu. rewrite X1.
    assert (Y : fmul y1 y1 = iso_g (fmul n (finv d))).
    { apply (fmul_cancel_l p_prime V); [exact HV|]. transitivity U; [rewrite <- Q; generalize V; intros; ring|rewrite <- HG; generalize (iso_g (fmul n (finv d))) V; intros; ring]. }
    split; [left; split; [exists y1; exact Y|reflexivity]|]. split; [rewrite cmov_sq; exact Y|].
    apply cmov_sign. exact (iso_g_y _ _ Y).
  - cbn [cmov]. eexists _, _. split; [reflexivity|]. unfold rfc_sswu, sswu_x2. rewrite X1.
    assert (NQ : ~ square (iso_g (fmul n (finv d)))).
    { intros [r R]. apply NS. exists (fmul r V). rewrite <- HG, <- R. generalize r V. intros r' V'. ring. }
    assert (Nt : t <> fzero).
    { intros T. apply NQ. rewrite <- HX1, T, feqb_refl. exact exceptional_square. }
    assert (Y : fmul (fmul (fmul w u) y1) (fmul (fmul w u) y1) = iso_g (fmul w (fmul n (finv d)))).
    { rewrite (HX2 Nt). apply (fmul_cancel_l p_prime V); [exact HV|].
      transitivity (fmul (fmul (fmul w w) w) (fmul (iso_g (fmul n (finv d))) V)); [|generalize (iso_g (fmul n (finv d))) w V; intros; ring].
      rewrite HG. transitivity (fmul (fmul w w) (fmul (fmul u u) (fmul (fmul y1 y1) V))); [generalize w V; intros; ring|].
      rewrite Q. unfold w. generalize U sswu_Z. intros; ring. }
    fold w. assert (XX : fmul (fmul w n) (finv d) = fmul w (fmul n (finv d))) by (generalize w n (finv d); intros; ring).
    rewrite XX. split; [right; split; [exact NQ|reflexivity]|]. split; [rewrite cmov_sq; exact Y|].
    apply cmov_sign. exact (iso_g_y _ _ Y).
Qed.

Lemma from_field_elems_ok x y : from_field_elems x y = Ok (Some (Some (x, y))).
Proof.
  unfold from_field_elems, point_deserialize_any. cbn [Z.eqb Pos.eqb app].
  rewrite k256_deserialize_uncompressed by apply fe_bytes_length. now rewrite !fe_bytes_back.
Qed.
Lemma map_spec u : exists x y, map_to_curve u = Ok (Some (Some (x, y))) /\ rfc_map u x y /\ eqn x y.
Proof.
  destruct (sswu_spec u) as (x' & y' & E & R). unfold map_to_curve. rewrite E. cbn [bind].
  assert (Y : fmul y' y' = iso_g x') by apply R. rewrite (isogeny_spec _ _ Y). eexists _, _. split; [apply from_field_elems_ok|].
  split; [|apply iso_on_curve; exact Y]. exists x', y'. destruct (iso_nz _ _ Y). repeat split; try assumption; apply R.
Qed.
Lemma fe_wide b : (List.length b <= 64)%nat -> fe_from_bytes_wide b = of_Z p (be_val b).
Proof.
  intros L. unfold fe_from_bytes_wide, set_bytes_wide. rewrite copy_into_val.
  replace (List.length b - 64)%nat with 0%nat by lia. reflexivity.
Qed.

Section H2C.
Context {X : Oracles} (HX : oracles_ok X).
Lemma hash_to_field_spec msg dst : exists uniform, rfc_expand sha256 msg dst 96 = Some uniform /\
  hash_to_field 2 msg dst = Ok [rfc_field uniform 0; rfc_field uniform 1].
Proof.
  destruct (expand_ok HX msg dst 96 ltac:(lia)) as [o Ho]. exists o. pose proof (expand_length HX _ _ _ _ Ho) as L.
  pose proof Ho as Ho'. rewrite (expand_is_rfc HX) in Ho' by lia.
  split; [destruct (rfc_expand sha256 msg dst 96); [f_equal; now inversion Ho'|discriminate Ho']|].
  unfold hash_to_field. change ((256 + 128 + 7) / 8) with 48. change (Z.of_nat 2 * 48) with 96. rewrite Ho. cbn [bind seq mapM].
  assert (B : blen o = 96) by (unfold blen; rewrite L; reflexivity).
  rewrite !slice_ok by (rewrite ?B; lia). cbn [bind]. rewrite !fe_wide by (rewrite firstn_length; lia). reflexivity.
Qed.
Lemma h2c_spec msg dst : exists uniform x0 y0 x1 y1,
  rfc_expand sha256 msg dst 96 = Some uniform /\
  rfc_map (rfc_field uniform 0) x0 y0 /\ rfc_map (rfc_field uniform 1) x1 y1 /\
  eqn x0 y0 /\ eqn x1 y1 /\
  hash_to_curve_ro msg dst = Ok (pt_add (Some (x0, y0)) (Some (x1, y1))).
Proof.
  destruct (hash_to_field_spec msg dst) as (o & Ho & E). unfold hash_to_curve_ro. rewrite E. cbn [bind nth].
  destruct (map_spec (rfc_field o 0)) as (x0 & y0 & -> & R0 & E0). destruct (map_spec (rfc_field o 1)) as (x1 & y1 & -> & R1 & E1).
  cbn [bind]. exists o, x0, y0, x1, y1. repeat (split; [assumption|]). reflexivity.
Qed.
End H2C.
