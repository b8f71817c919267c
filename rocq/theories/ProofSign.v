(** Signing. *)
From Coq Require Import ZArith Lia Bool String List Ring Field.
From Verif Require Import Base BaseFacts Zmod Fields ModelScalar ProofScalar ModelXmd ModelRo ProofRo SpecPoly ModelPoly ProofPoly ProofLagrange
  ModelGroup GroupFacts SpecGroup ModelCommit ProofCommit ModelZk ProofZk ModelMega
  ModelDealing SpecDealing ProofTranscript ModelKey ProofKey ModelSign ProofOracles SpecSign.
Import ListNotations.
Open Scope Z_scope.

Section Sign.
Context {X : Oracles} (HX : oracles_ok X) {GO : Grp} {GL : GrpLaws GO}.

Lemma Ok_inj {A} (a b : A) : Ok a = Ok b -> a = b.
Proof. intros H. injection H as H. exact H. Qed.
Lemma conversion_spec P : ecdsa_conversion P = Ok (of_Z q (fv (affx P))).
Proof.
  unfold ecdsa_conversion, scalar_from_bytes_wide. rewrite wide_spec. unfold blen. rewrite be_bytes_length.
  change (64 <? Z.of_nat 32) with false. cbv iota. rewrite be_val_be_bytes. change (256 ^ Z.of_nat 32) with (2 ^ 256).
  rewrite Z.mod_small; [reflexivity|]. pose proof (fv_range p (affx P) ltac:(unfold p; lia)). unfold p in *. lia.
Qed.
Lemma hash_to_integer_spec h : hash_to_integer h = if 64 <? blen h then Panic else Ok (of_Z q (be_val h)).
Proof. unfold hash_to_integer, scalar_from_bytes_wide. apply wide_spec. Qed.

Lemma rho_ro_nonempty h rnd ps t : ro_inputs (rho_ro h rnd ps t) <> [].
Proof.
  unfold rho_ro, add_scalar at 1. apply run1_nonempty. apply (sc_call_wf "key_tweak"); reflexivity.
Qed.

(** DeriveRho on a simple interpolated presignature transcript *)
Lemma derive_rho_cases h rnd pa key presig P l K : tr_commitment presig = CInterp (CSimple (P :: l)) -> tr_constant_term key = Ok K ->
  derive_rho h rnd pa key presig = Diverge \/
  exists t ch rz, derive_tweak pa K = Ok (t, ch) /\ ro_output_scalar (rho_ro h rnd P t) = Ok rz /\
    derive_rho h rnd pa key presig = Ok (mkrho (of_Z q (fv (affx (gadd P (smul rz genG))))) t rz (gadd P (smul rz genG))).
Proof.
  intros EP EK. unfold derive_rho, presig_point. rewrite EP. cbn [c_type unwrap bind]. rewrite Z.eqb_refl.
  unfold c_constant_term. cbn [c_points unwrap bind]. rewrite EK. cbn [bind].
  destruct (tweak_loop_cases HX pa K (repeat 0 32) fzero) as [[[t ch] E]|E]; unfold derive_tweak; rewrite E; [right|left; reflexivity].
  cbn [bind fst]. destruct (ro_scalar_total HX (rho_ro h rnd P t) (rho_ro_nonempty _ _ _ _)) as [rz Er]. rewrite Er. cbn [bind].
  rewrite conversion_spec. cbn [bind]. exists t, ch, rz. auto.
Qed.

(** the two values a share carries *)
Lemma new_share_inv pa h rnd key presig lv lm kv km xv xm s r :
  derive_rho h rnd pa key presig = Ok r ->
  new_share pa h rnd key presig (OPedersen lv lm) (OPedersen kv km) (OPedersen xv xm) = Ok s ->
  exists e, hash_to_integer h = Ok e /\
    let theta := fadd e (fmul (ro_rho r) (ro_tweak r)) in
    s = mkshare (OPedersen (fadd (fmul theta lv) (fmul (ro_rho r) xv)) (fadd (fmul theta lm) (fmul (ro_rho r) xm)))
                (OPedersen (fadd (fmul (ro_randomizer r) lv) kv) (fadd (fmul (ro_randomizer r) lm) km)).
Proof.
  intros E H. unfold new_share in H. rewrite E in H. rewrite bind_Ok in H. apply bind_inv in H. destruct H as (e & Ee & H).
  cbn [lambda_parts bind] in H. apply Ok_inj in H. subst s. exists e. split; [exact Ee|reflexivity].
Qed.

Definition norm (s : Fq) : Fq := if is_high s then fneg s else s.
Lemma norm_low s : is_high (norm s) = false.
Proof.
  unfold norm. destruct (is_high s) eqn:E; [|exact E]. rewrite is_high_neg, E; [reflexivity|]. intros ->. rewrite is_high_zero in E. discriminate.
Qed.
Lemma norm_cases s : norm s = s \/ norm s = fneg s.
Proof. unfold norm. destruct (is_high s); auto. Qed.

Lemma combine_sig_low pa h rnd key presig th shares sg : combine_sig pa h rnd key presig th shares = Ok sg -> is_high (sg_s sg) = false.
Proof.
  unfold combine_sig. destruct (_ <? _); [discriminate|]. intros H.
  apply bind_inv in H. destruct H as (r & _ & H). apply bind_inv in H. destruct H as (n & _ & H).
  apply bind_inv in H. destruct H as (cs & _ & H). apply bind_inv in H. destruct H as (nu & _ & H). apply bind_inv in H. destruct H as (de & _ & H).
  apply Ok_inj in H. subst sg. cbn [sg_s]. apply norm_low.
Qed.

(** interpolation of shares whose two values lie on polynomials *)
Lemma combine_sig_on pa h rnd key presig th shares N D r :
  keys_ok shares -> 0 < th -> th <= Z.of_nat (length shares) ->
  derive_rho h rnd pa key presig = Ok r ->
  isp (length shares) N -> isp (length shares) D ->
  (forall i s, In (i, s) shares -> exists m m', s = mkshare (OPedersen (N (node_x i)) m) (OPedersen (D (node_x i)) m')) ->
  combine_sig pa h rnd key presig th shares = Ok (mksig (ro_rho r) (norm (fmul (N fzero) (finv (D fzero))))).
Proof.
  intros [K1 K2] Hth Hl Er HN HD Hs. unfold combine_sig. destruct (Z.ltb_spec (Z.of_nat (length shares)) th); [lia|].
  rewrite Er, bind_Ok. unfold go_make. destruct (Z.ltb_spec th 0); [lia|]. rewrite bind_Ok. destruct (Z.leb_spec th 0); [lia|].
  assert (Ne : map fst shares <> []) by (destruct shares; [cbn [length] in Hl; lia|discriminate]).
  destruct (lagrange_ok fzero (map fst shares) K1 K2 Ne) as (cs & Ec & Lc & Nc). unfold lagrange_at_zero. rewrite Ec, bind_Ok.
  assert (EN : flat_map (fun e => num_sample (snd e)) shares = map (fun i => N (from_node_index i)) (map fst shares)).
  { clear -Hs. induction shares as [|[i s] l IH]; [reflexivity|]. cbn [flat_map map fst snd].
    destruct (Hs i s (or_introl eq_refl)) as (m & m' & ->). cbn [num_sample ss_num app]. rewrite node_x_eq. f_equal. apply IH.
    intros i' s' Hin. apply Hs. right. exact Hin. }
  assert (ED : flat_map (fun e => den_sample (snd e)) shares = map (fun i => D (from_node_index i)) (map fst shares)).
  { clear -Hs. induction shares as [|[i s] l IH]; [reflexivity|]. cbn [flat_map map fst snd].
    destruct (Hs i s (or_introl eq_refl)) as (m & m' & ->). cbn [den_sample ss_den app]. rewrite node_x_eq. f_equal. apply IH.
    intros i' s' Hin. apply Hs. right. exact Hin. }
  rewrite EN, ED.
  rewrite (lagrange_reconstruct fzero (map fst shares) N cs K1 K2 Ec) by (rewrite map_length; exact HN). rewrite bind_Ok.
  rewrite (lagrange_reconstruct fzero (map fst shares) D cs K1 K2 Ec) by (rewrite map_length; exact HD). rewrite bind_Ok. reflexivity.
Qed.

Lemma isp_spec l n : (length l <= n)%nat -> isp n (spec_eval l).
Proof. intros H. apply (isp_ext n (pev l)); [intros; symmetry; apply pev_spec|]. apply isp_pev. exact H. Qed.

(** honest shares: the closed form of the signature *)
Lemma combine_honest pa h rnd key presig th shares L KL XL r e :
  keys_ok shares -> 0 < th -> th <= Z.of_nat (length shares) ->
  (length L <= length shares)%nat -> (length KL <= length shares)%nat -> (length XL <= length shares)%nat ->
  derive_rho h rnd pa key presig = Ok r -> hash_to_integer h = Ok e ->
  honest_shares pa h rnd key presig L KL XL shares ->
  combine_sig pa h rnd key presig th shares =
    Ok (mksig (ro_rho r) (norm (fmul (fadd (fmul (fadd e (fmul (ro_rho r) (ro_tweak r))) (spec_eval L fzero)) (fmul (ro_rho r) (spec_eval XL fzero)))
                                (finv (fadd (fmul (ro_randomizer r) (spec_eval L fzero)) (spec_eval KL fzero)))))).
Proof.
  intros K Hth Hl L1 L2 L3 Er Ee Hs.
  apply (combine_sig_on pa h rnd key presig th shares
    (fun v => fadd (fmul (fadd e (fmul (ro_rho r) (ro_tweak r))) (spec_eval L v)) (fmul (ro_rho r) (spec_eval XL v)))
    (fun v => fadd (fmul (ro_randomizer r) (spec_eval L v)) (spec_eval KL v))); try assumption.
  - apply isp_add; apply isp_scale; apply isp_spec; assumption.
  - apply isp_add; [apply isp_scale|]; apply isp_spec; assumption.
  - intros i s Hin. destruct (Hs i s Hin) as (m1 & m2 & m3 & E). apply (new_share_inv _ _ _ _ _ _ _ _ _ _ _ _ r Er) in E.
    destruct E as (e' & Ee' & ->). assert (e' = e) as -> by congruence. eexists _, _. reflexivity.
Qed.

(** ** verification *)
Definition vpoint (pk : G) (e r s : Fq) : G := gadd (smul (fmul e (finv s)) genG) (smul (fmul r (finv s)) pk).

Lemma sig_verify_iff t pa h rnd key presig :
  sig_verify t pa h rnd key presig = Ok tt <->
  exists e ro K, sg_r t <> fzero /\ sg_s t <> fzero /\ hash_to_integer h = Ok e /\ derive_rho h rnd pa key presig = Ok ro /\
    sg_r t = ro_rho ro /\ is_high (sg_s t) = false /\ tr_constant_term key = Ok K /\
    vpoint (gadd (mul_by_g (ro_tweak ro)) K) e (sg_r t) (sg_s t) <> gzero /\
    affx (vpoint (gadd (mul_by_g (ro_tweak ro)) K) e (sg_r t) (sg_s t)) = affx (ro_presig ro).
Proof.
  unfold sig_verify. split.
  - intros H. destruct (feqb (sg_r t) fzero) eqn:Z1; [discriminate|]. destruct (feqb (sg_s t) fzero) eqn:Z2; [discriminate|]. cbn [orb] in H.
    apply bind_inv in H. destruct H as (e & Ee & H). apply bind_inv in H. destruct H as (ro & Er & H).
    destruct (feqb (sg_r t) (ro_rho ro)) eqn:Z3; [|discriminate]. destruct (is_high (sg_s t)) eqn:Hh; [discriminate|]. cbn [negb orb] in H.
    apply bind_inv in H. destruct H as (K & EK & H). unfold is_infinity, mul_points in H. fold (vpoint (gadd (mul_by_g (ro_tweak ro)) K) e (sg_r t) (sg_s t)) in H.
    destruct (geqb _ gzero) eqn:Z4; [discriminate|]. unfold guard in H. destruct (feqb (affx _) _) eqn:Z5; [|discriminate].
    exists e, ro, K. split; [exact (proj1 (feqb_neq _ _ _) Z1)|]. split; [exact (proj1 (feqb_neq _ _ _) Z2)|].
    split; [exact Ee|]. split; [exact Er|]. split; [apply feqb_eq; exact Z3|]. split; [reflexivity|]. split; [exact EK|].
    split; [intros Q; apply geqb_iff in Q; congruence|]. apply feqb_eq. exact Z5.
  - intros (e & ro & K & N1 & N2 & Ee & Er & E3 & Hh & EK & N4 & E5).
    rewrite (proj2 (feqb_neq _ (sg_r t) fzero) N1), (proj2 (feqb_neq _ (sg_s t) fzero) N2). cbn [orb]. rewrite Ee, bind_Ok, Er, bind_Ok. rewrite E3, feqb_refl, Hh. cbn [negb orb].
    rewrite EK, bind_Ok. unfold is_infinity, mul_points. rewrite <- E3. fold (vpoint (gadd (mul_by_g (ro_tweak ro)) K) e (sg_r t) (sg_s t)).
    destruct (geqb _ gzero) eqn:Z4; [apply geqb_iff in Z4; contradiction|]. rewrite E5, feqb_refl. reflexivity.
Qed.
Lemma vpoint_neg pk e r s : s <> fzero -> vpoint pk e r (fneg s) = gneg (vpoint pk e r s).
Proof.
  intros N. unfold vpoint. assert (E : finv (fneg s) = fneg (finv s)).
  { assert (N' : fneg s <> fzero) by (intros Q; apply N; assert (s = fneg (fneg s)) as -> by ring; rewrite Q; ring). field. auto. }
  rewrite E. gring.
Qed.
Lemma vpoint_neg_zero pk e r s : s <> fzero -> vpoint pk e r s <> gzero -> vpoint pk e r (fneg s) <> gzero.
Proof.
  intros N H Q. apply H. rewrite vpoint_neg in Q by exact N.
  assert (E : vpoint pk e r s = gneg (gneg (vpoint pk e r s))) by gring. rewrite E, Q. gring.
Qed.
Lemma vpoint_ecdsa pk z r s : r <> fzero -> s <> fzero -> vpoint pk (of_Z q z) r s <> gzero -> of_Z q (fv (affx (vpoint pk (of_Z q z) r s))) = r ->
  spec_ecdsa pk z r s.
Proof.
  intros N1 N2 N3 E. split; [exact N1|]. split; [exact N2|]. exists (finv s), (vpoint pk (of_Z q z) r s).
  split; [apply (finv_l q_prime); exact N2|]. split; [reflexivity|]. split; [exact N3|]. rewrite <- (fv_of_Z q). f_equal. exact E.
Qed.
End Sign.
