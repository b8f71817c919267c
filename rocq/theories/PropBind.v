(** C88: a signature is accepted for one message, one beacon value and one
    derived key only. *)
From Coq Require Import ZArith Lia Bool String List Ring Field.
From Verif Require Import Base BaseFacts Zmod Fields ModelScalar ModelXmd ModelRo SpecRo ProofRo ModelPoly SpecPoly ProofPoly ModelGroup GroupFacts ModelCommit
  ModelZk ProofZk ModelMega ModelDealing ModelKey ModelSign ProofSign ProofTranscript ProofOracles PropReplay PropSign PropPresig.
From Verif Require Toy.
Import ListNotations.
Open Scope Z_scope.

Section Bind.
Context {X : Oracles} {GO : Grp} {GL : GrpLaws GO}.

Lemma derive_rho_shape h rnd pa key presig r : derive_rho h rnd pa key presig = Ok r ->
  exists P K ch, presig_point presig = Ok P /\ tr_constant_term key = Ok K /\ derive_tweak pa K = Ok (ro_tweak r, ch) /\
    ro_output_scalar (rho_ro h rnd P (ro_tweak r)) = Ok (ro_randomizer r) /\
    ro_presig r = gadd P (smul (ro_randomizer r) genG) /\ ro_rho r = of_Z q (fv (affx (ro_presig r))).
Proof.
  unfold derive_rho. intros E. apply bind_inv in E. destruct E as (P & EP & E). apply bind_inv in E. destruct E as (K & EK & E).
  apply bind_inv in E. destruct E as ([t ch] & Et & E). cbn [fst] in E. apply bind_inv in E. destruct E as (rz & Ez & E).
  rewrite conversion_spec, bind_Ok in E. apply Ok_inj in E. subst r. cbn [ro_tweak ro_randomizer ro_presig ro_rho].
  exists P, K, ch. auto 8.
Qed.
Lemma small_wraps a b : 0 <= a < p -> 0 <= b < p -> a mod q = b mod q -> a = b \/ a = b + q \/ b = a + q.
Proof.
  intros Ha Hb E. assert (p < 2 * q) by (unfold p, q; lia). assert (0 < q) by (unfold q; lia).
  pose proof (Z.div_mod a q ltac:(lia)). pose proof (Z.div_mod b q ltac:(lia)).
  pose proof (Z.mod_pos_bound a q ltac:(lia)). rewrite E in *.
  assert (0 <= a / q < 2) by (split; [apply Z.div_pos; lia|apply Z.div_lt_upper_bound; lia]).
  assert (0 <= b / q < 2) by (split; [apply Z.div_pos; lia|apply Z.div_lt_upper_bound; lia]).
  assert (A : a / q = 0 \/ a / q = 1) by lia. assert (B : b / q = 0 \/ b / q = 1) by lia.
  destruct A as [A|A], B as [B|B]; rewrite A in *; rewrite B in *; lia.
Qed.
End Bind.

(** Let one signature be accepted in two contexts with the same presignature
    point P.  Then the message hash, the beacon value and the tweak are the same,
    or one of three things happened that can be read off the two contexts: the
    oracle of DeriveRho has a clash; the discrete logarithm of P is the negated
    mean of the two oracle outputs; the x-coordinates of the two randomised
    points differ by exactly the group order. *)
Theorem C88_signature_binds_its_context :
  forall (X : Oracles) (GO : Grp) (GL : GrpLaws GO) sg pa h rnd key presig pa' h' rnd' key' presig' r r',
  presig_point presig = presig_point presig' -> blen h <= 255 -> blen rnd <= 255 ->
  sig_verify sg pa h rnd key presig = Ok tt -> sig_verify sg pa' h' rnd' key' presig' = Ok tt ->
  derive_rho h rnd pa key presig = Ok r -> derive_rho h' rnd' pa' key' presig' = Ok r' ->
  (h = h' /\ rnd = rnd' /\ ro_tweak r = ro_tweak r') \/
  (exists P, presig_point presig = Ok P /\
    (clash ro_output_scalar (rho_ro h rnd P (ro_tweak r)) (rho_ro h' rnd' P (ro_tweak r')) \/
     P = smul (fneg (fmul (finv (of_Z q 2)) (fadd (ro_randomizer r) (ro_randomizer r')))) genG)) \/
  (fv (affx (ro_presig r)) = fv (affx (ro_presig r')) + q \/ fv (affx (ro_presig r')) = fv (affx (ro_presig r)) + q).
Proof.
  intros X GO GL sg pa h rnd key presig pa' h' rnd' key' presig' r r' EP Lh Lr V V' D D'.
  apply sig_verify_iff in V, V'.
  destruct V as (e & ro & K & N1 & _ & _ & D1 & R1 & _). destruct V' as (e' & ro' & K' & _ & _ & _ & D1' & R1' & _).
  assert (ro = r) by congruence. assert (ro' = r') by congruence. subst ro ro'.
  destruct (derive_rho_shape _ _ _ _ _ _ D) as (P & K0 & ch & HP & _ & _ & Z & Q & R).
  destruct (derive_rho_shape _ _ _ _ _ _ D') as (P' & K0' & ch' & HP' & _ & _ & Z' & Q' & R').
  assert (P' = P) by congruence. subst P'. clear HP'.
  assert (M : fv (affx (ro_presig r)) mod q = fv (affx (ro_presig r')) mod q).
  { rewrite <- !(fv_of_Z q). rewrite <- R, <- R', <- R1, <- R1'. reflexivity. }
  apply small_wraps in M; [|apply fv_range; unfold p; lia|apply fv_range; unfold p; lia].
  destruct M as [M|M]; [|right; right; exact M]. apply fe_eq in M.
  assert (NZ : forall rr, ro_rho rr = of_Z q (fv (affx (ro_presig rr))) -> sg_r sg = ro_rho rr -> ro_presig rr <> gzero).
  { intros rr E1 E2 E3. apply N1. rewrite E2, E1, E3, affx_zero. apply fe_eq. reflexivity. }
  destruct (affx_inj _ _ M (NZ r R R1) (NZ r' R' R1')) as [E|E].
  - rewrite Q, Q' in E. apply gadd_cancel_l in E. apply smul_inj_l in E; [|exact genG_nz]. rewrite <- E in Z'.
    destruct (scalar_clash _ _ _ Z Z') as [F|C]; [left|right; left; exists P; auto].
    exact (let W := rho_form_inj _ _ _ _ _ _ _ _ Lh Lr F in conj (proj1 W) (conj (proj1 (proj2 W)) (proj2 (proj2 (proj2 W))))).
  - right. left. exists P. split; [exact HP|]. right. rewrite Q, Q' in E.
    assert (T : smul (of_Z q 2) P = smul (fneg (fadd (ro_randomizer r) (ro_randomizer r'))) genG).
    { assert (T2 : of_Z q 2 = fadd fone fone) by (apply fe_eq; reflexivity). rewrite T2.
      assert (T3 : gadd (gadd P (smul (ro_randomizer r) genG)) (gadd P (smul (ro_randomizer r') genG)) = gzero) by (rewrite E; gring).
      apply (gadd_cancel_l (smul (fadd (ro_randomizer r) (ro_randomizer r')) genG)).
      transitivity (gzero : G); [rewrite <- T3; gring|gring]. }
    assert (N2 : of_Z q 2 <> fzero) by (intros W; apply (f_equal (@fv q)) in W; rewrite fv_of_Z in W; discriminate W).
    assert (S : P = smul (finv (of_Z q 2)) (smul (of_Z q 2) P)).
    { rewrite <- smul_mul. assert (I : fmul (finv (of_Z q 2)) (of_Z q 2) = fone) by (apply (finv_l q_prime); exact N2). rewrite I, smul_1. reflexivity. }
    rewrite S at 1. rewrite T, <- smul_mul. clear. generalize (finv (of_Z q 2)). intros v.
    assert (E : forall u : Fq, fmul v (fneg u) = fneg (fmul v u)) by (intros u; ring). rewrite E. reflexivity.
Qed.
Print Assumptions C88_signature_binds_its_context.

(** test values, not code of /repo: with the toy hash, a sum of bytes, the
    messages [1; 2] and [2; 1] clash, and one signature is accepted for the first
    under the key 7 and for the second under [ex_x2]; [ex_w] is the inverse of
    [ex_s], so that nothing is inverted when the example is checked *)
Import Toy.
Definition ex_s : Fq := of_Z q 51926387043893416173345585406834468600625717252704239300138046273014504556546.
Definition ex_w : Fq := of_Z q 73050189785526360181534236828463470757715311453197546143222686657349752132226.
Definition ex_r : Fq := of_Z q 53586711314325546991626691194313135927529297492907280801968315141865707222301.
Definition ex_key_of (x : Fq) := mktranscript (CInterp (CSimple [mul_by_g x])).
Definition ex_x2 : Fq := of_Z q 7576829493493993695976858201150794964546046778563020932292829610764596879402.
Definition ex_accepts (x : Fq) (h : bytes) : bool :=
  match derive_rho h [] [] (ex_key_of x) ex_presig, hash_to_integer h with
  | Ok ro, Ok e =>
    let P := gadd (smul (fmul e ex_w) genG) (smul (fmul ex_r ex_w) (gadd (mul_by_g (ro_tweak ro)) (mul_by_g x))) in
    feqb (ro_rho ro) ex_r && negb (feqb ex_r fzero) && negb (feqb ex_s fzero) && feqb (fmul ex_w ex_s) fone && negb (is_high ex_s) &&
    negb (geqb P gzero) && feqb (affx P) (affx (ro_presig ro))
  | _, _ => false
  end.
Lemma ex_accepts_ok x h : ex_accepts x h = true -> sig_verify (mksig ex_r ex_s) [] h [] (ex_key_of x) ex_presig = Ok tt /\
  exists r, derive_rho h [] [] (ex_key_of x) ex_presig = Ok r.
Proof.
  unfold ex_accepts. destruct (derive_rho _ _ _ _ _) as [ro| | |] eqn:Er; try discriminate. destruct (hash_to_integer h) as [e| | |] eqn:Ee; try discriminate.
  intros H. repeat (apply andb_prop in H; destruct H as [H ?B]).
  apply negb_true_iff in B4, B3, B1, B0. apply feqb_eq in H, B, B2. apply feqb_neq in B4, B3. apply geqb_false in B0.
  split; [|eauto].
  assert (W : finv ex_s = ex_w).
  { apply (fmul_cancel_r _ _ ex_s B3). rewrite B2. apply (finv_l q_prime ex_s B3). }
  apply sig_verify_iff. exists e, ro, (mul_by_g x). cbn [sg_r sg_s]. unfold vpoint. rewrite W.
  split; [exact B4|]. split; [exact B3|]. split; [exact Ee|]. split; [exact Er|]. split; [symmetry; exact H|]. split; [exact B1|].
  split; [reflexivity|]. split; [exact B0|exact B].
Qed.
Example C88_ex : exists r r', presig_point ex_presig = presig_point ex_presig /\
  sig_verify (mksig ex_r ex_s) [] [1; 2] [] (ex_key_of (of_Z q 7)) ex_presig = Ok tt /\
  sig_verify (mksig ex_r ex_s) [] [2; 1] [] (ex_key_of ex_x2) ex_presig = Ok tt /\
  derive_rho [1; 2] [] [] (ex_key_of (of_Z q 7)) ex_presig = Ok r /\ derive_rho [2; 1] [] [] (ex_key_of ex_x2) ex_presig = Ok r'.
Proof.
  destruct (ex_accepts_ok (of_Z q 7) [1; 2]) as (V & r & E); [vm_compute; reflexivity|].
  destruct (ex_accepts_ok ex_x2 [2; 1]) as (V' & r' & E'); [vm_compute; reflexivity|].
  exists r, r'. auto.
Qed.
