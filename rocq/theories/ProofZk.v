From Coq Require Import ZArith Lia Bool String List Ring Field Permutation.
From Verif Require Import Base BaseFacts Zmod Fields ModelScalar ProofScalar ModelXmd ProofXmd ModelRo SpecRo ProofRo ProofRand
  SpecPoly ModelPoly ProofPoly ModelGroup GroupFacts ModelZk.
Import ListNotations.
Open Scope Z_scope.

Section Hash.
Context {X : Oracles} (HX : oracles_ok X).

Lemma hash_to_scalar_total cnt i d : 0 <= cnt -> cnt * 48 <= 8160 ->
  exists l, hash_to_scalar cnt i d = Ok l /\ Z.of_nat (length l) = cnt.
Proof.
  intros H1 H2. unfold hash_to_scalar. destruct (expand_ok HX i d (cnt * 48) ltac:(lia)) as [o Ho].
  rewrite Ho. cbn [bind].
  assert (W : forall k, scalar_from_bytes_wide (chunk48 o k) = Ok (of_Z q (be_val (chunk48 o k)))).
  { intros k. unfold scalar_from_bytes_wide. rewrite wide_spec. destruct (Z.ltb_spec 64 (blen (chunk48 o k))); [|reflexivity].
    unfold blen, chunk48 in *. rewrite firstn_length in *. lia. }
  generalize (seq_length (Z.to_nat cnt) 0). generalize (seq 0 (Z.to_nat cnt)). intros l Hl.
  exists (map (fun k => of_Z q (be_val (chunk48 o k))) l). rewrite map_length, Hl. split; [|lia].
  clear Hl. induction l as [|k l IH]; [reflexivity|]. cbn [mapM map]. rewrite W, IH. reflexivity.
Qed.
Lemma ro_scalars_total r cnt : ro_inputs r <> [] -> 0 <= cnt -> cnt * 48 <= 8160 ->
  exists l, ro_output_scalars r cnt = Ok l /\ Z.of_nat (length l) = cnt.
Proof.
  intros Hr H1 H2. unfold ro_output_scalars, ro_form. destruct (ro_inputs r); [congruence|]. cbn [bind].
  apply hash_to_scalar_total; assumption.
Qed.
Lemma ro_scalar_total r : ro_inputs r <> [] -> exists s, ro_output_scalar r = Ok s.
Proof.
  intros Hr. unfold ro_output_scalar. destruct (ro_scalars_total r 1 Hr) as (l & E & Hl); [lia|lia|].
  rewrite E. cbn [bind]. destruct l; [cbn in Hl; lia|]. eauto.
Qed.
Lemma run1_nonempty r n d t : call_wf (n, d, t) = true -> ro_inputs (ro_add_ign r n d t) <> [].
Proof.
  intros W H. pose proof (run1_lookup r (n, d, t) n) as L. unfold run1 in L. rewrite H in L. cbn [lookup] in L.
  rewrite W, bytes_eqb_refl in L. destruct (lookup n (ro_inputs r)); discriminate.
Qed.
Lemma seed_rng_ok s : blen s = 32 -> seed_rng s = Ok (mkrng s 0).
Proof. intros H. unfold seed_rng, new_chacha. rewrite H. reflexivity. Qed.
End Hash.

Section Zk.
Context {X : Oracles} {GO : Grp} {GL : GrpLaws GO}.

Definition pt_call (n : string) (a : G) : call := (str n, ser_tagged a, ty_point).
Definition by_call (n : string) (v : bytes) : call := (str n, v, ty_bytes).
Definition int_call (n : string) (v : Z) : call := (str n, be_bytes 8 (u32 v), ty_integer).

Lemma ser_tagged_len a : blen (ser_tagged a) = 34.
Proof. unfold ser_tagged. rewrite blen_cons, ser_len. reflexivity. Qed.
Lemma ser_tagged_inj a b : ser_tagged a = ser_tagged b -> a = b.
Proof. unfold ser_tagged. intros H. apply ser_inj. congruence. Qed.
Lemma pt_call_wf n a : 1 <=? blen (str n) = true -> blen (str n) <=? 255 = true -> call_wf (pt_call n a) = true.
Proof. intros H1 H2. unfold call_wf, pt_call. rewrite ser_tagged_len, H1, H2. reflexivity. Qed.
Lemma int_call_wf n v : 1 <=? blen (str n) = true -> blen (str n) <=? 255 = true -> call_wf (int_call n v) = true.
Proof. intros H1 H2. unfold call_wf, int_call. unfold blen at 3. rewrite be_bytes_length, H1, H2. reflexivity. Qed.
Lemma by_call_wf n v : 1 <=? blen (str n) = true -> blen (str n) <=? 255 = true -> blen v <= 255 -> call_wf (by_call n v) = true.
Proof. intros H1 H2 H3. unfold call_wf, by_call. rewrite H1, H2. apply Z.leb_le in H3. rewrite H3. reflexivity. Qed.
Lemma by_call_bad n v : 255 < blen v -> call_wf (by_call n v) = false.
Proof. intros H. unfold call_wf, by_call. apply Z.leb_gt in H. rewrite H. apply andb_false_r. Qed.

Lemma content_skip m d t l n : bytes_eqb m n = false -> content ((m, d, t) :: l) n = content l n.
Proof. intros H. cbn [content]. rewrite H. reflexivity. Qed.
Lemma content_hit m d t l n : bytes_eqb m n = true -> call_wf (m, d, t) = true -> content ((m, d, t) :: l) n = Some (d, t).
Proof. intros H W. cbn [content]. rewrite H, W. reflexivity. Qed.
Lemma content_bad m d t l n : call_wf (m, d, t) = false -> content ((m, d, t) :: l) n = content l n.
Proof. intros W. cbn [content]. rewrite W, andb_false_r. reflexivity. Qed.

Definition dlog_calls (g h gx hx c1 c2 : G) (ad : bytes) : list call :=
  [by_call "associated_data" ad; pt_call "instance_g" g; pt_call "instance_h" h; pt_call "instance_g_x" gx;
   pt_call "instance_h_x" hx; pt_call "commitment1" c1; pt_call "commitment2" c2].
Definition eqo_calls (g h a b c : G) (ad : bytes) : list call :=
  [by_call "associated_data" ad; pt_call "instance_g" g; pt_call "instance_h" h; pt_call "instance_a" a;
   pt_call "instance_b" b; pt_call "commitment" c].
Definition prod_calls (g h l r pr c1 c2 : G) (ad : bytes) : list call :=
  [by_call "associated_data" ad; pt_call "instance_g" g; pt_call "instance_h" h; pt_call "instance_lhs" l;
   pt_call "instance_rhs" r; pt_call "instance_product" pr; pt_call "commitment1" c1; pt_call "commitment2" c2].
Lemma dlog_ro_run g h gx hx c1 c2 ad : dlog_ro g h gx hx c1 c2 ad = run (new_ro dlog_dst) (dlog_calls g h gx hx c1 c2 ad).
Proof. unfold dlog_ro, dlog_calls, run, add_point, add_bytes, by_call, pt_call. cbn [fold_left run1]. reflexivity. Qed.
Lemma eqo_ro_run g h a b c ad : eqo_ro g h a b c ad = run (new_ro eqo_dst) (eqo_calls g h a b c ad).
Proof. unfold eqo_ro, eqo_calls, run, add_point, add_bytes, by_call, pt_call. cbn [fold_left run1]. reflexivity. Qed.
Lemma prod_ro_run g h l r pr c1 c2 ad : prod_ro g h l r pr c1 c2 ad = run (new_ro eqo_dst) (prod_calls g h l r pr c1 c2 ad).
Proof. unfold prod_ro, prod_calls, run, add_point, add_bytes, by_call, pt_call. cbn [fold_left run1]. reflexivity. Qed.

(** oversize first input *)
Lemma run_bad d c l : call_wf c = false -> run (new_ro d) (c :: l) = run (new_ro d) l.
Proof.
  intros W. unfold run. cbn [fold_left]. f_equal. destruct c as [[n b] t]. unfold run1, ro_add_ign.
  rewrite ro_add_input_cases, W. reflexivity.
Qed.

Lemma dlog_challenge_ad g h gx hx c1 c2 ad ad' : 255 < blen ad -> 255 < blen ad' ->
  dlog_challenge g h gx hx c1 c2 ad = dlog_challenge g h gx hx c1 c2 ad'.
Proof.
  intros H H'. unfold dlog_challenge. rewrite !dlog_ro_run. unfold dlog_calls.
  rewrite (run_bad _ (by_call _ ad)), (run_bad _ (by_call _ ad')) by (apply by_call_bad; assumption). reflexivity.
Qed.
Lemma eqo_challenge_ad g h a b c ad ad' : 255 < blen ad -> 255 < blen ad' ->
  eqo_challenge g h a b c ad = eqo_challenge g h a b c ad'.
Proof.
  intros H H'. unfold eqo_challenge. rewrite !eqo_ro_run. unfold eqo_calls.
  rewrite (run_bad _ (by_call _ ad)), (run_bad _ (by_call _ ad')) by (apply by_call_bad; assumption). reflexivity.
Qed.
Lemma prod_challenge_ad g h l r pr c1 c2 ad ad' : 255 < blen ad -> 255 < blen ad' ->
  prod_challenge g h l r pr c1 c2 ad = prod_challenge g h l r pr c1 c2 ad'.
Proof.
  intros H H'. unfold prod_challenge. rewrite !prod_ro_run. unfold prod_calls.
  rewrite (run_bad _ (by_call _ ad)), (run_bad _ (by_call _ ad')) by (apply by_call_bad; assumption). reflexivity.
Qed.

(** ** completeness *)
Lemma guard_true b : b = true -> guard b = Ok tt. Proof. intros ->. reflexivity. Qed.

Lemma dlog_create_shape seed x g h ad pf : dlog_create seed x g h ad = Ok pf ->
  exists r r' c, (do rn <- seed_rng seed; random_scalar rn) = Ok (r, r') /\
    dlog_challenge g h (smul x g) (smul x h) (smul r g) (smul r h) ad = Ok c /\
    pf = mkdlog c (fadd (fmul x c) r).
Proof.
  unfold dlog_create. destruct (seed_rng seed) as [rn| | |]; cbn [bind]; try discriminate.
  destruct (random_scalar rn) as [[r r']| | |]; cbn [bind fst]; try discriminate.
  destruct (dlog_challenge _ _ _ _ _ _ _) as [c| | |] eqn:E; cbn [bind or_panic]; try discriminate.
  intros H. injection H as <-. exists r, r', c. auto.
Qed.
Lemma dlog_recover_honest x r c g h : dlog_recover g h (smul x g) (smul x h) (mkdlog c (fadd (fmul x c) r)) = (smul r g, smul r h).
Proof. unfold dlog_recover, gsub. cbn [dl_response dl_challenge]. f_equal; gring. Qed.
Lemma dlog_complete seed x g h ad pf : dlog_create seed x g h ad = Ok pf ->
  dlog_verify pf g h (smul x g) (smul x h) ad = Ok tt.
Proof.
  intros H. apply dlog_create_shape in H. destruct H as (r & r' & c & _ & E & ->).
  unfold dlog_verify. rewrite dlog_recover_honest, E. cbn [bind dl_challenge]. rewrite feqb_refl. reflexivity.
Qed.
Lemma eqo_create_shape seed s m ad pf : eqo_create seed s m ad = Ok pf ->
  exists r r' c, (do rn <- seed_rng seed; random_scalar rn) = Ok (r, r') /\
    eqo_challenge genG genH (pedersen s m) (mul_by_g s) (smul r genH) ad = Ok c /\
    pf = mkeqo c (fadd (fmul m c) r).
Proof.
  unfold eqo_create. destruct (seed_rng seed) as [rn| | |]; cbn [bind]; try discriminate.
  destruct (random_scalar rn) as [[r r']| | |]; cbn [bind fst]; try discriminate.
  destruct (eqo_challenge _ _ _ _ _ _) as [c| | |] eqn:E; cbn [bind]; try discriminate.
  intros H. injection H as <-. exists r, r', c. auto.
Qed.
Lemma eqo_recover_honest s m r c : eqo_recover genH (pedersen s m) (mul_by_g s) (mkeqo c (fadd (fmul m c) r)) = smul r genH.
Proof. unfold eqo_recover, gsub, pedersen, mul_points, mul_by_g. cbn [eo_response eo_challenge]. gring. Qed.
Lemma eqo_complete seed s m ad pf : eqo_create seed s m ad = Ok pf ->
  eqo_verify pf (pedersen s m) (mul_by_g s) ad = Ok tt.
Proof.
  intros H. apply eqo_create_shape in H. destruct H as (r & r' & c & _ & E & ->).
  unfold eqo_verify. rewrite eqo_recover_honest, E. cbn [bind eo_challenge]. rewrite feqb_refl. reflexivity.
Qed.
Lemma prod_create_shape seed l r rm pr pm ad pf : prod_create seed l r rm pr pm ad = Ok pf ->
  exists r1 r2 rn1 rn2 c, (do rn <- seed_rng seed; random_scalar rn) = Ok (r1, rn1) /\ random_scalar rn1 = Ok (r2, rn2) /\
    prod_challenge genG genH (smul l genG) (mul_points genG r genH rm) (mul_points genG pr genH pm) (smul r1 genG)
      (mul_points (mul_points genG r genH rm) r1 genH r2) ad = Ok c /\
    pf = mkprod c (fadd (fmul l c) r1) (fadd (fmul (fsub pm (fmul l rm)) c) r2).
Proof.
  unfold prod_create. destruct (seed_rng seed) as [rn| | |]; cbn [bind]; try discriminate.
  destruct (random_scalar rn) as [[r1 rn1]| | |]; cbn [bind fst]; try discriminate.
  destruct (random_scalar rn1) as [[r2 rn2]| | |] eqn:E2; cbn [bind fst]; try discriminate.
  destruct (prod_challenge _ _ _ _ _ _ _ _) as [c| | |] eqn:E; cbn [bind]; try discriminate.
  intros H. injection H as <-. exists r1, r2, rn1, rn2, c. auto.
Qed.
Lemma prod_recover_honest l r rm pm r1 r2 c :
  prod_recover genH (smul l genG) (mul_points genG r genH rm) (mul_points genG (fmul l r) genH pm)
    (mkprod c (fadd (fmul l c) r1) (fadd (fmul (fsub pm (fmul l rm)) c) r2)) =
  (smul r1 genG, mul_points (mul_points genG r genH rm) r1 genH r2).
Proof.
  unfold prod_recover, gsub, mul_points, mul_by_g. cbn [pr_response1 pr_response2 pr_challenge]. f_equal; gring.
Qed.
Lemma prod_complete seed l r rm pm ad pf : prod_create seed l r rm (fmul l r) pm ad = Ok pf ->
  prod_verify pf (mul_by_g l) (pedersen r rm) (pedersen (fmul l r) pm) ad = Ok tt.
Proof.
  intros H. apply prod_create_shape in H. destruct H as (r1 & r2 & rn1 & rn2 & c & _ & _ & E & ->).
  unfold prod_verify, mul_by_g, pedersen. rewrite prod_recover_honest, E. cbn [bind pr_challenge]. rewrite feqb_refl. reflexivity.
Qed.

(** ** creation never fails *)
Lemma dlog_challenge_total (HX : oracles_ok X) g h gx hx c1 c2 ad : exists c, dlog_challenge g h gx hx c1 c2 ad = Ok c.
Proof.
  apply (ro_scalar_total HX). unfold dlog_ro, add_point at 1. apply run1_nonempty. apply (pt_call_wf "commitment2"); reflexivity.
Qed.
Lemma eqo_challenge_total (HX : oracles_ok X) g h a b c ad : exists e, eqo_challenge g h a b c ad = Ok e.
Proof.
  apply (ro_scalar_total HX). unfold eqo_ro, add_point at 1. apply run1_nonempty. apply (pt_call_wf "commitment"); reflexivity.
Qed.
Lemma prod_challenge_total (HX : oracles_ok X) g h l r pr c1 c2 ad : exists c, prod_challenge g h l r pr c1 c2 ad = Ok c.
Proof.
  apply (ro_scalar_total HX). unfold prod_ro, add_point at 1. apply run1_nonempty. apply (pt_call_wf "commitment2"); reflexivity.
Qed.
Lemma dlog_create_total (HX : oracles_ok X) seed x g h ad : blen seed = 32 ->
  (exists pf, dlog_create seed x g h ad = Ok pf) \/ dlog_create seed x g h ad = Diverge.
Proof.
  intros Hs. unfold dlog_create. rewrite seed_rng_ok by assumption. cbn [bind].
  destruct (random_scalar_cases (mkrng seed 0)) as [(s & r' & ->)| ->]; cbn [bind fst]; [|right; reflexivity].
  destruct (dlog_challenge_total HX g h (smul x g) (smul x h) (smul s g) (smul s h) ad) as [c ->].
  left. eexists. reflexivity.
Qed.
Lemma eqo_create_total (HX : oracles_ok X) seed s m ad : blen seed = 32 ->
  (exists pf, eqo_create seed s m ad = Ok pf) \/ eqo_create seed s m ad = Diverge.
Proof.
  intros Hs. unfold eqo_create. rewrite seed_rng_ok by assumption. cbn [bind].
  destruct (random_scalar_cases (mkrng seed 0)) as [(r & r' & ->)| ->]; cbn [bind fst]; [|right; reflexivity].
  destruct (eqo_challenge_total HX genG genH (pedersen s m) (mul_by_g s) (smul r genH) ad) as [c ->].
  left. eexists. reflexivity.
Qed.
Lemma prod_create_total (HX : oracles_ok X) seed l r rm pr pm ad : blen seed = 32 ->
  (exists pf, prod_create seed l r rm pr pm ad = Ok pf) \/ prod_create seed l r rm pr pm ad = Diverge.
Proof.
  intros Hs. unfold prod_create. rewrite seed_rng_ok by assumption. cbn [bind].
  destruct (random_scalar_cases (mkrng seed 0)) as [(r1 & rn1 & ->)| ->]; cbn [bind fst]; [|right; reflexivity].
  destruct (random_scalar_cases rn1) as [(r2 & rn2 & ->)| ->]; cbn [bind fst]; [|right; reflexivity].
  destruct (prod_challenge_total HX genG genH (smul l genG) (mul_points genG r genH rm) (mul_points genG pr genH pm) (smul r1 genG)
      (mul_points (mul_points genG r genH rm) r1 genH r2) ad) as [c ->].
  left. eexists. reflexivity.
Qed.

(** ** special soundness *)
Lemma gsub_eq (z c z' c' : Fq) (a b : G) : c <> c' ->
  gsub (smul z a) (smul c b) = gsub (smul z' a) (smul c' b) -> b = smul (fdiv (fsub z z') (fsub c c')) a.
Proof.
  intros N E. assert (D : fsub c c' <> fzero) by (intros H; apply fsub_zero in H; contradiction).
  assert (H : smul (fsub c c') b = smul (fsub z z') a).
  { apply (gadd_cancel_l (gadd (gsub (smul z' a) (smul c' b)) (smul c' b))).
    transitivity (gadd (gsub (smul z a) (smul c b)) (smul c b)).
    - rewrite E. unfold gsub. gring.
    - unfold gsub. gring. }
  unfold fdiv. assert (E1 : fmul (fsub z z') (finv (fsub c c')) = fmul (finv (fsub c c')) (fsub z z')) by ring.
  rewrite E1, smul_mul, <- H, <- smul_mul, finv_l by (exact q_prime || exact D). symmetry. apply smul_1.
Qed.
Lemma dlog_special_sound g h gx hx pf pf' : dlog_recover g h gx hx pf = dlog_recover g h gx hx pf' ->
  dl_challenge pf <> dl_challenge pf' ->
  let x := fdiv (fsub (dl_response pf) (dl_response pf')) (fsub (dl_challenge pf) (dl_challenge pf')) in
  gx = smul x g /\ hx = smul x h.
Proof.
  intros E N x. unfold dlog_recover in E. injection E as E1 E2.
  split; apply gsub_eq; assumption.
Qed.
Lemma eqo_special_sound h a b pf pf' : eqo_recover h a b pf = eqo_recover h a b pf' ->
  eo_challenge pf <> eo_challenge pf' ->
  let y := fdiv (fsub (eo_response pf) (eo_response pf')) (fsub (eo_challenge pf) (eo_challenge pf')) in
  a = gadd b (smul y h).
Proof.
  intros E N y. unfold eqo_recover in E. apply gsub_eq in E; [|exact N]. unfold y. rewrite <- E. unfold gsub. gring.
Qed.
Lemma prod_special_sound h l r pr pf pf' : prod_recover h l r pr pf = prod_recover h l r pr pf' ->
  pr_challenge pf <> pr_challenge pf' ->
  let d := fsub (pr_challenge pf) (pr_challenge pf') in
  let x := fdiv (fsub (pr_response1 pf) (pr_response1 pf')) d in
  let y := fdiv (fsub (pr_response2 pf) (pr_response2 pf')) d in
  l = smul x genG /\ pr = gadd (smul x r) (smul y h).
Proof.
  intros E N d x y. unfold prod_recover in E. injection E as E1 E2.
  split; [apply gsub_eq; assumption|].
  assert (D : d <> fzero) by (unfold d; intros H; apply fsub_zero in H; contradiction).
  destruct pf as [c z1 z2], pf' as [c' z1' z2']. cbn [pr_challenge pr_response1 pr_response2] in *.
  assert (H : smul d pr = gadd (smul (fsub z1 z1') r) (smul (fsub z2 z2') h)).
  { apply (gadd_cancel_l (gadd (gsub (mul_points r z1' h z2') (smul c' pr)) (smul c' pr))).
    transitivity (gadd (gsub (mul_points r z1 h z2) (smul c pr)) (smul c pr)).
    - rewrite E2. unfold d, gsub, mul_points. gring.
    - unfold d, gsub, mul_points. gring. }
  rewrite <- (smul_1 pr), <- (finv_l q_prime d D), smul_mul, H, smul_gadd, <- !smul_mul. unfold x, y, fdiv.
  f_equal; f_equal; ring.
Qed.
End Zk.
