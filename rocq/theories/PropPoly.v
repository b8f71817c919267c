(** Properties C23 to C28. *)
From Coq Require Import ZArith Lia Bool List Ring Field.
From Verif Require Import Base BaseFacts Zmod Fields ModelScalar ProofScalar ModelXmd ModelRo ModelPoly SpecPoly ProofPoly ProofInterp ProofLagrange
  ModelGroup SpecGroup ModelCommit ProofCommit ProofSecrecy.
From Verif Require Import Toy.
Import ListNotations.
Open Scope Z_scope.

(** C23 *)
Theorem C23_arithmetic : forall l r x,
  evaluate_at l x = spec_eval l x /\
  spec_eval (poly_add l r) x = fadd (spec_eval l x) (spec_eval r x) /\
  spec_eval (poly_mul l r) x = fmul (spec_eval l x) (spec_eval r x).
Proof.
  intros l r x. rewrite !pev_spec, evaluate_at_pev, poly_add_pev, poly_mul_pev. auto.
Qed.
Theorem C23_equal : forall l r, poly_equal l r = true <-> spec_same l r.
Proof. exact poly_equal_iff. Qed.
Print Assumptions C23_arithmetic.
Print Assumptions C23_equal.

(** C24 *)
Theorem C24_mul_scalar_uses_receiver : forall recv lhs s,
  poly_mul_scalar recv lhs s =
    if (length recv <? length lhs)%nat then Panic
    else Ok (map (fun c => fmul c s) (firstn (length lhs) recv)).
Proof. exact poly_mul_scalar_spec. Qed.
Theorem C24_receiver_is_argument : forall po s x, exists r, poly_mul_scalar po po s = Ok r /\
  spec_eval r x = fmul s (spec_eval po x).
Proof.
  intros po s x. exists (pscale s po). split; [apply poly_mul_scalar_self|]. rewrite !pev_spec. apply pscale_pev.
Qed.
Theorem C24_expected_product_refuted :
  ~ (forall recv lhs s r, poly_mul_scalar recv lhs s = Ok r -> forall x, spec_eval r x = fmul s (spec_eval lhs x)).
Proof.
  intros H. specialize (H [of_Z q 1] [of_Z q 2] (of_Z q 1) [of_Z q 1] eq_refl (of_Z q 0)).
  apply (f_equal fv) in H. vm_compute in H. discriminate.
Qed.
Print Assumptions C24_mul_scalar_uses_receiver.
Print Assumptions C24_receiver_is_argument.
Print Assumptions C24_expected_product_refuted.

(** C25 *)
Theorem C25_interpolate_sound : forall ss po, interpolate ss = Ok po ->
  NoDup (map fst ss) /\ passes_through po ss /\ (length po <= length ss)%nat /\
  (forall po', (length po' <= length ss)%nat -> passes_through po' ss -> spec_same po po').
Proof.
  intros ss po H. destruct (interpolate_spec ss) as [(po2 & E & Hl & Hp & Hn & _)|[E _]]; [|congruence].
  assert (po2 = po) by congruence. subst po2.
  split; [exact Hn|]. split; [exact Hp|]. split; [lia|].
  intros po' Hl' Hp'. apply (agree_coeffs (map fst ss)); rewrite ?map_length; try assumption; try lia.
  intros x Hx. apply in_map_iff in Hx. destruct Hx as (s & <- & Hs). rewrite <- !pev_spec.
  rewrite (Hp s Hs), (Hp' s Hs). reflexivity.
Qed.
Print Assumptions C25_interpolate_sound.
(** C26 *)
Theorem C26_succeeds_exactly : forall ss,
  (exists po, interpolate ss = Ok po) <-> newton_possible ss.
Proof.
  intros ss. destruct (interpolate_spec ss) as [(po & E & _ & _ & Hn)|[E Hn]]; split; intros H; eauto.
  - destruct H as [po H]. congruence.
  - contradiction.
Qed.
Theorem C26_never_panics : forall ss, interpolate ss <> Panic /\ interpolate ss <> Diverge.
Proof.
  intros ss. destruct (interpolate_spec ss) as [(po & E & _)|[E _]]; rewrite E; split; discriminate.
Qed.
Lemma nodup3 : NoDup [of_Z q 1; of_Z q 2; of_Z q 3].
Proof.
  repeat constructor; cbn [In]; intros E;
    repeat (destruct E as [E|E]; [apply (f_equal fv) in E; vm_compute in E; discriminate|]); exact E.
Qed.
Theorem C26_distinct_suffices_refuted :
  ~ (forall ss, NoDup (map fst ss) -> exists po, interpolate ss = Ok po).
Proof.
  intros H. specialize (H [(of_Z q 1, of_Z q 5); (of_Z q 2, of_Z q 5); (of_Z q 3, of_Z q 5)] nodup3).
  apply (proj1 (C26_succeeds_exactly _)) in H. destruct H as [_ H].
  apply (H [(of_Z q 1, of_Z q 5)] (of_Z q 2, of_Z q 5) [(of_Z q 3, of_Z q 5)] eq_refl); try discriminate.
  exists [of_Z q 5]. split; [cbn; lia|]. rewrite !pev_spec. split; [|cbn [pev snd]; ring].
  intros s' [<-|[]]. rewrite pev_spec. cbn [pev snd]. ring.
Qed.
(** the hypotheses of C25 and C26 are met by three samples not on a line *)
Example C26_ex : exists po, interpolate [(of_Z q 1, of_Z q 5); (of_Z q 2, of_Z q 7); (of_Z q 3, of_Z q 11)] = Ok po.
Proof.
  apply C26_succeeds_exactly. split; [exact nodup3|]. intros prev s post E Hp Hq.
  destruct prev as [|a [|b [|c prev]]]; try congruence.
  - injection E as <- <- <-. intros (c & Hc & H1 & H2). specialize (H1 _ (or_introl eq_refl)).
    cbn [length] in Hc. rewrite pev_spec in *. destruct c as [|c [|d l]]; cbn [pev fst snd] in *.
    + apply (f_equal fv) in H2. vm_compute in H2. discriminate.
    + assert (E5 : (of_Z q 5 : Fq) = of_Z q 7).
      { rewrite <- H1, <- H2. ring. }
      apply (f_equal fv) in E5. vm_compute in E5. discriminate.
    + cbn [length] in Hc. lia.
  - injection E as <- <- <- <-. congruence.
  - apply (f_equal (@length _)) in E. cbn [app length] in E. rewrite app_length in E. cbn [length] in E. lia.
Qed.
Print Assumptions C26_succeeds_exactly.
Print Assumptions C26_never_panics.
Print Assumptions C26_distinct_suffices_refuted.

(** C27 *)
Theorem C27_scalar_reconstruction : forall samples v po, Forall int64_ok samples -> NoDup samples -> samples <> [] ->
  (length po <= length samples)%nat ->
  exists cs, lagrange_at_value v samples = Ok cs /\
    interpolate_scalar cs (map (fun i => spec_eval po (node_x i)) samples) = Ok (spec_eval po v).
Proof.
  intros samples v po Hf Hd Hne Hl. pose proof (lagrange_value_spec v samples Hf Hd Hne) as E.
  eexists. split; [exact E|]. rewrite pev_spec.
  rewrite <- (lagrange_reconstruct v samples (pev po) _ Hf Hd E) by (apply isp_pev; exact Hl).
  f_equal. apply map_ext. intros i. rewrite pev_spec. symmetry. f_equal. apply node_x_eq.
Qed.
Print Assumptions C27_scalar_reconstruction.
Theorem C27_point_reconstruction : forall (GO : Grp) (GL : GrpLaws GO) samples v pts,
  Forall int64_ok samples -> NoDup samples -> samples <> [] ->
  (length pts <= length samples)%nat ->
  exists cs, lagrange_at_value v samples = Ok cs /\
    interpolate_point cs (map (fun i => spec_geval pts (node_x i)) samples) = Ok (spec_geval pts v).
Proof.
  intros GO GL samples v pts Hf Hd Hne Hl. pose proof (lagrange_value_spec v samples Hf Hd Hne) as E.
  eexists. split; [exact E|]. rewrite gev_spec.
  rewrite <- (lagrange_point_reconstruct v samples (gev pts) _ Hf Hd E) by (exists pts; auto).
  f_equal. apply map_ext. intros i. rewrite gev_spec. f_equal. symmetry. apply node_x_eq.
Qed.
Theorem C27_rejections : forall (GO : Grp),
  (forall v samples, (2 <= length samples)%nat -> ~ NoDup samples -> lagrange_at_value v samples = Err) /\
  (forall v, lagrange_at_value v [] = Err) /\
  (forall cs ys, length ys <> length cs -> interpolate_scalar cs ys = Err) /\
  (forall cs ys, length ys <> length cs -> interpolate_point cs ys = Err).
Proof.
  intros GO. split; [exact lagrange_dup_err|]. split; [reflexivity|].
  split; intros cs ys H; [unfold interpolate_scalar|unfold interpolate_point];
    apply Nat.eqb_neq in H; rewrite H; reflexivity.
Qed.
Print Assumptions C27_point_reconstruction.
Print Assumptions C27_rejections.
Example C27_ex : Forall int64_ok [0; 3; 4] /\ NoDup [0; 3; 4].
Proof. split; [repeat constructor; unfold int64_ok; lia|]. repeat constructor; cbn [In]; lia. Qed.

(** C28: [sharing t s ss po]: po has t coefficients, constant term s and passes
    through the shares ss *)
Theorem C28_every_secret_possible : forall t s ss, NoDup (map fst ss) -> ~ In fzero (map fst ss) ->
  (length ss < t)%nat -> exists po, sharing t s ss po.
Proof. exact sharing_exists. Qed.
Theorem C28_exactly_one : forall t s ss, NoDup (map fst ss) -> ~ In fzero (map fst ss) ->
  S (length ss) = t -> exists! po, sharing t s ss po.
Proof.
  intros t s ss Hd Hz Hl. destruct (sharing_exists t s ss Hd Hz ltac:(lia)) as [po Hp].
  exists po. split; [exact Hp|]. intros po' Hp'. apply (sharing_unique t s ss); try assumption. lia.
Qed.
(** for any smaller number of shares: the sharings of two secrets compatible with
    the shares are in bijection, by adding one fixed polynomial *)
Theorem C28_equally_many : forall t s s' ss, NoDup (map fst ss) -> ~ In fzero (map fst ss) -> (length ss < t)%nat ->
  exists d, length d = t /\ forall po, length po = t ->
    (sharing t s ss po <-> sharing t s' ss (poly_add po d)).
Proof. exact sharing_shift. Qed.
(** the shares the code hands out at node indices are at distinct non-zero abscissae *)
Theorem C28_node_abscissae : forall idx, Forall (fun i => 0 <= i < 2^63) idx -> NoDup idx ->
  NoDup (map from_node_index idx) /\ ~ In fzero (map from_node_index idx).
Proof.
  intros idx Hf Hd.
  assert (Hi : Forall int64_ok idx) by (eapply Forall_impl; [|exact Hf]; intros i Hi; unfold int64_ok; cbn in Hi; lia).
  split; [apply nodes_nodup; assumption|]. intros H. apply in_map_iff in H. destruct H as (i & H & Hin).
  rewrite Forall_forall in Hi, Hf. apply (proj1 (from_node_index_zero i (Hi i Hin))) in H. specialize (Hf i Hin). cbn in Hf. lia.
Qed.
Print Assumptions C28_every_secret_possible.
Print Assumptions C28_exactly_one.
Print Assumptions C28_equally_many.
Print Assumptions C28_node_abscissae.
Example C28_ex : Forall (fun i => 0 <= i < 2^63) [0; 1; 7] /\ NoDup [0; 1; 7].
Proof. split; [repeat constructor; lia|]. repeat constructor; cbn [In]; lia. Qed.
