(** C60: which cells change in memory; C63: the memory-level programs compute
    the functions on values, whatever pointers are shared. *)
From Coq Require Import ZArith Lia Bool String List.
From Verif Require Import Base BaseFacts Zmod Fields ModelScalar ModelXmd ModelRo ModelPoly ModelGroup ModelCommit ModelZk ModelMega
  ModelDealing ModelKey ModelSign ModelHeap ModelHeapSign SpecHeap ProofPoly ProofHeap ProofHeapSign ProofFrame.
Import ListNotations.
Open Scope Z_scope.

(** ** C60 *)
(** Polynomial methods: no polynomial but the receiver changes, no scalar at all. *)
Section C60.
Context {X : Oracles} {GO : Grp}.
Lemma last_store_keeps (m : M (list ptr)) P recv h p v : frame [] h m P -> nth_error h p = Some (VS v) ->
  nth_error (fst (hbind m (store_q recv) h)) p = Some (VS v).
Proof.
  intros F G0. destruct (F h (ext_refl [] h)) as [E _]. unfold hbind. destruct (m h) as [h1 x]. simpl in E.
  assert (G1 : get h1 p = Some (VS v)) by (apply E; auto). destruct x; simpl; try exact G1. unfold store_q.
  destruct (get h1 recv) as [[]|] eqn:R; simpl; try exact G1. change (get (upd h1 recv (VQ a)) p = Some (VS v)). rewrite upd_get.
  destruct (Nat.eqb_spec recv p); [congruence|exact G1].
Qed.
Lemma frame_keeps {A} (m : M A) P h p v : frame [] h m P -> nth_error h p = Some (VS v) -> nth_error (fst (m h)) p = Some (VS v).
Proof. intros F G0. destruct (F h (ext_refl [] h)) as [E _]. apply E; auto. Qed.
Lemma fresh_list h0 l : Forall (okp [] h0) l -> Forall (fresh h0) l.
Proof. apply Forall_impl. intros a. apply okp_fresh. Qed.
Lemma wf {A} (m : M A) (P : list ptr -> heap -> A -> Prop) (Q : heap -> A -> Prop) ws :
  (forall h0, frame ws h0 m (P ws h0)) -> (forall h0 a, P ws h0 a -> Q h0 a) -> writes_only ws m Q.
Proof. intros F I. apply frame_writes. intros h0. eapply fr_mono; [|apply F]. auto. Qed.
End C60.

Theorem C60_polynomial_methods_keep_every_scalar :
  forall (X : Oracles) (GO : Grp) (h : heap) (recv l r x s : ptr) (samples : list (ptr * ptr)),
  scalars_kept h (fst (q_evaluate_at recv x h)) /\
  scalars_kept h (fst (q_add recv l r h)) /\
  scalars_kept h (fst (q_mul recv l r h)) /\
  scalars_kept h (fst (q_mul_scalar recv l s h)) /\
  scalars_kept h (fst (q_equal recv r h)) /\
  scalars_kept h (fst (q_interpolate samples h)).
Proof.
  intros X GO h recv l r x s samples. split; [|split; [|split; [|split; [|split]]]]; intros p v G0.
  - eapply frame_keeps; [apply fr_q_evaluate_at|exact G0].
  - assert (E : q_add recv l r h = hbind (hbind (load_q l) (fun lc => hbind (load_q r) (fun rc => hmap (fun i => hbind (q_coeff l i) (fun x => hbind (q_coeff r i) (fun y => s_add x x y)))
                  (seq 0 (Nat.max (List.length lc) (List.length rc)))))) (store_q recv) h).
    { unfold q_add, hbind. destruct (load_q l h) as [h1 [a| | |]]; try reflexivity.
      destruct (load_q r h1) as [h2 [b| | |]]; reflexivity. }
    rewrite E. eapply last_store_keeps with (P := fun _ => True); [|exact G0].
    eapply fr_bind; [apply fr_load_q|intros ? ?]. eapply fr_bind; [apply fr_load_q|intros ? ?].
    eapply fr_true, fr_map with (P := okp [] h). intros i _. eapply fr_bind; [apply fr_q_coeff|intros ? ?]. eapply fr_bind; [apply fr_q_coeff|intros ? ?].
    now apply fr_s_add.
  - assert (E : q_mul recv l r h = hbind (hbind (load_q l) (fun lc => hbind (load_q r) (fun rc =>
        hbind (hmap (fun _ => s_new fzero) (repeat tt (Nat.max (List.length lc + List.length rc) 1 - 1))) (fun coeffs =>
        hbind (q_mul_rows coeffs 0 lc rc) (fun _ => hret coeffs))))) (store_q recv) h).
    { unfold q_mul, hbind, hret. destruct (load_q l h) as [h1 [a| | |]]; try reflexivity. destruct (load_q r h1) as [h2 [b| | |]]; try reflexivity.
      destruct (hmap _ _ h2) as [h3 [c| | |]]; try reflexivity. destruct (q_mul_rows c 0 a b h3) as [h4 [d| | |]]; reflexivity. }
    rewrite E. eapply last_store_keeps with (P := fun _ => True); [|exact G0].
    eapply fr_bind; [apply fr_load_q|intros ? ?]. eapply fr_bind; [apply fr_load_q|intros ? ?].
    eapply fr_bind; [apply fr_map with (P := okp [] h); intros; apply fr_s_new|intros ? ?].
    eapply fr_bind; [apply fr_q_mul_rows; assumption|intros ? ?]. now apply fr_ret.
  - assert (E : q_mul_scalar recv l s h = hbind (hbind (load_q l) (fun lc => hbind (load_q recv) (fun pc =>
        hmap (fun i => match nth_error pc i with Some c => hbind (s_new fzero) (fun z => s_mul z c s) | None => hpanic end) (seq 0 (List.length lc))))) (store_q recv) h).
    { unfold q_mul_scalar, hbind. destruct (load_q l h) as [h1 [a| | |]]; try reflexivity.
      destruct (load_q recv h1) as [h2 [b| | |]]; reflexivity. }
    rewrite E. eapply last_store_keeps with (P := fun _ => True); [|exact G0].
    eapply fr_bind; [apply fr_load_q|intros ? ?]. eapply fr_bind; [apply fr_load_q|intros ? ?].
    eapply fr_true, fr_map with (P := okp [] h). intros i _. match goal with |- frame _ _ (match ?x with _ => _ end) _ => destruct x end; [|apply fr_panic]. eapply fr_bind; [apply fr_s_new|intros ? ?]. now apply fr_s_mul.
  - eapply frame_keeps; [apply fr_q_equal|exact G0].
  - eapply frame_keeps; [apply fr_q_interpolate|exact G0].
Qed.
Theorem C60_polynomial_methods_write_only_the_receiver :
  forall (X : Oracles) (GO : Grp) (recv l r x s : ptr) (samples : list (ptr * ptr)),
  writes_only [] (q_evaluate_at recv x) fresh /\
  writes_only [recv] (q_add recv l r) (fun h a => a = recv \/ fresh h a) /\
  writes_only [recv] (q_mul recv l r) (fun h a => a = recv \/ fresh h a) /\
  writes_only [recv] (q_mul_scalar recv l s) (fun h a => a = recv \/ fresh h a) /\
  writes_only [] (q_equal recv r) (fun _ _ => True) /\
  writes_only [] (q_interpolate samples) fresh.
Proof.
  intros X GO recv l r x s samples.
  assert (O : forall h0, okp [recv] h0 recv) by (intros; left; now left).
  assert (I : forall h0 a, okp [recv] h0 a -> a = recv \/ fresh h0 a) by (intros h0 a [[<-|[]]|L]; auto).
  split; [|split; [|split; [|split; [|split]]]].
  - eapply wf with (P := okp); [intros; apply fr_q_evaluate_at|intros; now apply okp_fresh].
  - eapply wf with (P := okp); [intros; apply fr_q_add; apply O|exact I].
  - eapply wf with (P := okp); [intros; apply fr_q_mul; apply O|exact I].
  - eapply wf with (P := okp); [intros; apply fr_q_mul_scalar; apply O|exact I].
  - apply frame_writes. intros. apply fr_q_equal.
  - eapply wf with (P := okp); [intros; apply fr_q_interpolate|intros; now apply okp_fresh].
Qed.
Theorem C60_lagrange_changes_nothing :
  forall (X : Oracles) (GO : Grp) (value : ptr) (indices : list Z) (cs ys : list ptr),
  writes_only [] (l_at_value value indices) (fun h ps => Forall (fresh h) ps) /\
  writes_only [] (l_at_zero indices) (fun h ps => Forall (fresh h) ps) /\
  writes_only [] (l_interpolate_scalar cs ys) fresh /\
  writes_only [] (l_interpolate_point cs ys) fresh.
Proof.
  intros X GO value indices cs ys. split; [|split; [|split]].
  - eapply wf with (P := fun ws h => Forall (okp ws h)); [intros; apply fr_l_at_value|intros; now apply fresh_list].
  - eapply wf with (P := fun ws h => Forall (okp ws h)); [intros; apply fr_l_at_zero|intros; now apply fresh_list].
  - eapply wf with (P := okp); [intros; apply fr_l_interpolate_scalar|intros; now apply okp_fresh].
  - eapply wf with (P := okp); [intros; apply fr_l_interpolate_point|intros; now apply okp_fresh].
Qed.
(** Evaluation, creation and checking of commitments. *)
Theorem C60_commitments_change_nothing :
  forall (X : Oracles) (GO : Grp) (c : hcommitment) (o : hopening) (i n : Z) (q1 q2 : ptr),
  writes_only [] (hc_constant_term c) fresh /\
  writes_only [] (hc_eval c i) fresh /\
  writes_only [] (hc_check_opening c i o) (fun _ _ => True) /\
  writes_only [] (hc_return_if_consistent c i o) (fun _ a => a = o) /\
  writes_only [] (hc_simple_create q1 n) (fun _ _ => True) /\
  writes_only [] (hc_pedersen_create q1 q2 n) (fun _ _ => True).
Proof.
  intros X GO c o i n q1 q2. split; [|split; [|split; [|split; [|split]]]].
  - eapply wf with (P := okp); [intros; apply fr_hc_constant_term|intros; now apply okp_fresh].
  - eapply wf with (P := okp); [intros; apply fr_hc_eval|intros; now apply okp_fresh].
  - apply frame_writes. intros. apply fr_hc_check_opening.
  - apply frame_writes. intros. apply fr_hc_return_if_consistent.
  - apply frame_writes. intros. eapply fr_true, fr_hc_simple_create.
  - apply frame_writes. intros. eapply fr_true, fr_hc_pedersen_create.
Qed.
(** Key derivation, signature shares, combination and verification. *)
Theorem C60_signing_changes_nothing :
  forall (X : Oracles) (GO : Grp) (pk : ptr) (pa : path) (hashed rnd : bytes) (key presig : hcommitment)
    (lambda kappa_lambda key_lambda : hopening) (threshold : Z) (shares : list (Z * hshare)) (sg : hsig),
  writes_only [] (h_derive_tweak pa pk) (fun h a => fresh h (fst a)) /\
  writes_only [] (h_derive_rho hashed rnd pa key presig)
    (fun h a => fresh h (hr_rho a) /\ fresh h (hr_tweak a) /\ fresh h (hr_randomizer a) /\ fresh h (hr_presig a)) /\
  writes_only [] (h_new_share pa hashed rnd key presig lambda kappa_lambda key_lambda) (fun _ _ => True) /\
  writes_only [] (h_combine_sig pa hashed rnd key presig threshold shares) (fun h a => fresh h (hg_r a) /\ fresh h (hg_s a)) /\
  writes_only [] (h_sig_verify sg pa hashed rnd key presig) (fun _ _ => True).
Proof.
  intros X GO pk pa hashed rnd key presig la ka xa threshold shares sg. split; [|split; [|split; [|split]]].
  - eapply wf with (P := fun ws h a => okp ws h (fst a)); [intros; apply fr_h_derive_tweak|intros; now apply okp_fresh].
  - eapply wf with (P := okr); [intros; apply fr_h_derive_rho|]. intros h0 a (A & B & C & D). auto using okp_fresh.
  - apply frame_writes. intros. eapply fr_true, fr_h_new_share.
  - eapply wf with (P := fun ws h a => okp ws h (hg_r a) /\ okp ws h (hg_s a)); [intros; apply fr_h_combine_sig|].
    intros h0 a (A & B). auto using okp_fresh.
  - apply frame_writes. intros. apply fr_h_sig_verify.
Qed.
(** RandomWithConstant writes nothing either, but the new polynomial contains
    the caller's pointer: a later write to that scalar changes the polynomial. *)
Theorem C60_random_with_constant_keeps_the_callers_pointer :
  forall (X : Oracles) (GO : Grp) (h : heap) (c : ptr) (num : Z) (r : rng),
  unchanged h (fst (q_random_with_constant c num r h)) /\
  forall p r', snd (q_random_with_constant c num r h) = Ok (p, r') ->
    exists cs, nth_error (fst (q_random_with_constant c num r h)) p = Some (VQ (c :: cs)) /\ Forall (fresh h) cs /\ fresh h p.
Proof.
  intros X GO h c num r. destruct (frame_writes [] _ (fun _ _ => True) (fun h0 => fr_true [] h0 _ _ (fr_q_random_with_constant [] h0 c num r)) h) as [A _].
  split; [exact A|]. clear A. intros p r'. unfold q_random_with_constant.
  destruct (num =? 0); [discriminate|]. destruct (num <? 0); [discriminate|].
  destruct (fr_q_random_coeffs [] h (Z.to_nat num - 1) r h (ext_refl [] h)) as [[_ E] F]. unfold hbind.
  destruct (q_random_coeffs (Z.to_nat num - 1) r h) as [h1 [[cs r1]| | |]]; simpl in *; try discriminate.
  intros [= <- <-]. exists cs. split; [apply app_new|]. split; [|exact E]. apply fresh_list. now apply (F (cs, r1)).
Qed.
Print Assumptions C60_polynomial_methods_keep_every_scalar.
Print Assumptions C60_polynomial_methods_write_only_the_receiver.
Print Assumptions C60_lagrange_changes_nothing.
Print Assumptions C60_commitments_change_nothing.
Print Assumptions C60_signing_changes_nothing.
Print Assumptions C60_random_with_constant_keeps_the_callers_pointer.

(** ** C63 *)
Section C63.
Context {X : Oracles} {GO : Grp}.
Lemma computes_ref {A B} ws h (m : M A) (R R' : heap -> A -> B -> Prop) r :
  refines ws h h m R r -> (forall h' a b, R h' a b -> R' h' a b) -> computes ws h m R' r.
Proof.
  intros [[E _] Q] I. split.
  - intros p L N. destruct (nth_error h p) as [c|] eqn:G0; [|apply nth_error_None in G0; lia]. now apply (E p c).
  - destruct (snd (m h)), r; simpl in *; auto.
Qed.
End C63.
(** Arguments may coincide with each other and with the receiver, and
    polynomials may share coefficient cells. *)
Theorem C63_polynomial_methods :
  forall (X : Oracles) (GO : Grp) (h : heap) (recv l r x s : ptr) pv lv rv xv sv samples pairs,
  poly_at h recv pv -> poly_at h l lv -> poly_at h r rv -> scalar_at h x xv -> scalar_at h s sv ->
  Forall2 (fun a b => scalar_at h (fst a) (fst b) /\ scalar_at h (snd a) (snd b)) samples pairs ->
  computes [] h (q_evaluate_at recv x) (new_scalar h) (Ok (evaluate_at pv xv)) /\
  computes [recv] h (q_add recv l r) (fun h' a vs => a = recv /\ poly_of_new_scalars h h' a vs) (Ok (poly_add lv rv)) /\
  computes [recv] h (q_mul recv l r) (fun h' a vs => a = recv /\ poly_of_new_scalars h h' a vs) (Ok (poly_mul lv rv)) /\
  computes [recv] h (q_mul_scalar recv l s) (fun h' a vs => a = recv /\ poly_of_new_scalars h h' a vs) (poly_mul_scalar pv lv sv) /\
  computes [] h (q_equal l r) (fun _ a b => a = b) (Ok (poly_equal lv rv)) /\
  computes [] h (q_interpolate samples) (fun h' a vs => fresh h a /\ poly_at h' a vs) (interpolate pairs).
Proof.
  intros X GO h recv l r x s pv lv rv xv sv samples pairs P L R Gx Gs S. destruct (P) as (pc & GP & SP).
  assert (I : forall h' a vs, isq h recv h' a vs -> a = recv /\ poly_of_new_scalars h h' a vs).
  { intros h' a vs (-> & cs & G1 & N). split; [reflexivity|]. exists cs. split; [exact G1|exact N]. }
  split; [|split; [|split; [|split; [|split]]]].
  - eapply computes_ref; [apply q_evaluate_at_ok; [exact P|exact Gx]|]. auto.
  - eapply computes_ref; [eapply q_add_ok; [exact GP|exact L|exact R]|exact I].
  - eapply computes_ref; [eapply q_mul_ok; [exact GP|exact L|exact R]|exact I].
  - eapply computes_ref; [eapply q_mul_scalar_ok; [exact P|exact L|exact Gs]|exact I].
  - eapply computes_ref; [eapply q_equal_ok; [exact L|exact R]|auto].
  - eapply computes_ref; [apply q_interpolate_ok with (vs := pairs)|].
    + exact S.
    + intros h' a vs (F & cs & G1 & S1 & _). split; [exact F|]. exists cs. split; assumption.
Qed.

Theorem C63_lagrange :
  forall (X : Oracles) (GO : Grp) (h : heap) (value : ptr) v (indices : list Z) (cs ys ps : list ptr) cv yv pv,
  scalar_at h value v -> scalars_at h cs cv -> scalars_at h ys yv -> points_at h ps pv ->
  computes [] h (l_at_value value indices) (new_scalars h) (lagrange_at_value v indices) /\
  computes [] h (l_at_zero indices) (new_scalars h) (lagrange_at_zero indices) /\
  computes [] h (l_interpolate_scalar cs ys) (new_scalar h) (interpolate_scalar cv yv) /\
  computes [] h (l_interpolate_point cs ps) (new_point h) (interpolate_point cv pv).
Proof.
  intros X GO h value v indices cs ys ps cv yv pv Gv Sc Sy Sp. split; [|split; [|split]].
  - eapply computes_ref; [apply l_at_value_ok; exact Gv|auto].
  - eapply computes_ref; [apply l_at_zero_ok|auto].
  - eapply computes_ref; [apply l_interpolate_scalar_ok; [exact Sc|exact Sy]|auto].
  - eapply computes_ref; [apply l_interpolate_point_ok; [exact Sc|exact Sp]|auto].
Qed.
Theorem C63_commitments :
  forall (X : Oracles) (GO : Grp) (h : heap) (c : hcommitment) cv (o : hopening) ov (i n : Z) (q1 q2 : ptr) v1 v2,
  commitment_at h c cv -> opening_at h o ov -> poly_at h q1 v1 -> poly_at h q2 v2 ->
  computes [] h (hc_constant_term c) (new_point h) (c_constant_term cv) /\
  computes [] h (hc_eval c i) (new_point h) (c_eval cv i) /\
  computes [] h (hc_check_opening c i o) (fun _ a b => a = b) (c_check_opening cv i ov) /\
  computes [] h (hc_return_if_consistent c i o) (fun h' a b => a = o /\ opening_at h' a b) (c_return_if_consistent cv i ov) /\
  computes [] h (hc_simple_create q1 n) (new_commitment h) (simple_create v1 n) /\
  computes [] h (hc_pedersen_create q1 q2 n) (new_commitment h) (pedersen_create v1 v2 n).
Proof.
  intros X GO h c cv o ov i n q1 q2 v1 v2 C O Q1 Q2. split; [|split; [|split; [|split; [|split]]]].
  - eapply computes_ref; [apply hc_constant_term_ok; exact C|auto].
  - eapply computes_ref; [apply hc_eval_ok; exact C|auto].
  - eapply computes_ref; [apply hc_check_opening_ok; [exact C|exact O]|auto].
  - eapply computes_ref; [apply hc_return_if_consistent_ok; [exact C|exact O]|auto].
  - eapply computes_ref; [apply hc_simple_create_ok; exact Q1|auto].
  - eapply computes_ref; [apply hc_pedersen_create_ok; [exact Q1|exact Q2]|auto].
Qed.
Theorem C63_signing :
  forall (X : Oracles) (GO : Grp) (h : heap) (pk : ptr) P (pa : path) (hashed rnd : bytes) (key presig : hcommitment) kv pv
    (la ka xa : hopening) lv klv xlv (threshold : Z) (shares : list (Z * hshare)) vs (r s : ptr) rv sv,
  point_at h pk P -> commitment_at h key kv -> commitment_at h presig pv ->
  opening_at h la lv -> opening_at h ka klv -> opening_at h xa xlv ->
  Forall2 (share_at h) shares vs -> scalar_at h r rv -> scalar_at h s sv ->
  computes [] h (h_derive_tweak pa pk) (fun h' a b => new_scalar h h' (fst a) (fst b) /\ snd a = snd b) (derive_tweak pa P) /\
  computes [] h (h_derive_rho hashed rnd pa key presig)
    (fun h' a b => new_scalar h h' (hr_rho a) (ro_rho b) /\ new_scalar h h' (hr_tweak a) (ro_tweak b) /\
                   new_scalar h h' (hr_randomizer a) (ro_randomizer b) /\ new_point h h' (hr_presig a) (ro_presig b))
    (derive_rho hashed rnd pa (mktranscript kv) (mktranscript pv)) /\
  computes [] h (h_new_share pa hashed rnd key presig la ka xa)
    (fun h' a b => new_opening h h' (hs_num a) (ss_num b) /\ new_opening h h' (hs_den a) (ss_den b))
    (new_share pa hashed rnd (mktranscript kv) (mktranscript pv) lv klv xlv) /\
  computes [] h (h_combine_sig pa hashed rnd key presig threshold shares)
    (fun h' a b => new_scalar h h' (hg_r a) (sg_r b) /\ new_scalar h h' (hg_s a) (sg_s b) /\ hg_r a <> hg_s a)
    (combine_sig pa hashed rnd (mktranscript kv) (mktranscript pv) threshold vs) /\
  computes [] h (h_sig_verify (mkhsig r s) pa hashed rnd key presig) (fun _ _ _ => True)
    (sig_verify (mksig rv sv) pa hashed rnd (mktranscript kv) (mktranscript pv)).
Proof.
  intros X GO h pk P pa hashed rnd key presig kv pv la ka xa lv klv xlv threshold shares vs r s rv sv GP K PS L KL XL S Gr Gs.
  split; [|split; [|split; [|split]]].
  - eapply computes_ref; [apply h_derive_tweak_ok; exact GP|auto].
  - eapply computes_ref; [apply h_derive_rho_ok; [exact K|exact PS]|auto].
  - eapply computes_ref; [apply h_new_share_ok; [exact K|exact PS|exact L|exact KL|exact XL]|auto].
  - eapply computes_ref; [apply h_combine_sig_ok; [exact K|exact PS|exact S]|auto].
  - eapply computes_ref; [apply h_sig_verify_ok; [exact K|exact PS|exact Gr|exact Gs]|auto].
Qed.
Print Assumptions C63_polynomial_methods.
Print Assumptions C63_lagrange.
Print Assumptions C63_commitments.
Print Assumptions C63_signing.

(** test memory: a polynomial whose coefficients share a cell, two scalars, two
    points; receivers and arguments coincide *)
From Verif Require Import Toy.
Definition ex_heap : heap :=
  [VS (of_Z q 3); VS (of_Z q 5); VQ [0; 1; 0]%nat; VP (mul_by_g (of_Z q 7)); VP (mul_by_g (of_Z q 11))].
Example C63_ex_polynomials :
  poly_at ex_heap 2%nat [of_Z q 3; of_Z q 5; of_Z q 3] /\ scalar_at ex_heap 0%nat (of_Z q 3) /\
  Forall2 (fun a b => scalar_at ex_heap (fst a) (fst b) /\ scalar_at ex_heap (snd a) (snd b))
    [(0, 0); (1, 0)]%nat [(of_Z q 3, of_Z q 3); (of_Z q 5, of_Z q 3)].
Proof.
  split; [|split].
  - exists [0; 1; 0]%nat. split; [reflexivity|]. repeat constructor.
  - reflexivity.
  - repeat constructor.
Qed.
(** evaluation at the cell of a coefficient, and p := p + p, p := p * p in place *)
Definition ex_read (r : heap * res ptr) : list Z :=
  match r with
  | (h, Ok p) => match nth_error h p with
                 | Some (VS v) => [fv v]
                 | Some (VQ cs) => flat_map (fun c => match nth_error h c with Some (VS v) => [fv v] | _ => [] end) cs
                 | _ => []
                 end
  | _ => []
  end.
Example C63_ex_results :
  ex_read (q_evaluate_at 2%nat 0%nat ex_heap) = [45] /\ ex_read (q_add 2%nat 2%nat 2%nat ex_heap) = [6; 10; 6] /\
  ex_read (q_mul 2%nat 2%nat 2%nat ex_heap) = [9; 30; 43; 30; 9] /\ ex_read (q_mul_scalar 2%nat 2%nat 0%nat ex_heap) = [9; 15; 9].
Proof. vm_compute. auto. Qed.
Example C63_ex_signing :
  commitment_at ex_heap (HCInterp (HCSimple [3; 4]%nat)) (CInterp (CSimple [mul_by_g (of_Z q 7); mul_by_g (of_Z q 11)])) /\
  opening_at ex_heap (HOPedersen 0%nat 0%nat) (OPedersen (of_Z q 3) (of_Z q 3)) /\
  Forall2 (share_at ex_heap)
    [(0, mkhshare (HOPedersen 0%nat 0%nat) (HOPedersen 1%nat 0%nat)); (1, mkhshare (HOPedersen 0%nat 0%nat) (HOPedersen 1%nat 0%nat))]
    [(0, mkshare (OPedersen (of_Z q 3) (of_Z q 3)) (OPedersen (of_Z q 5) (of_Z q 3)));
     (1, mkshare (OPedersen (of_Z q 3) (of_Z q 3)) (OPedersen (of_Z q 5) (of_Z q 3)))] /\
  is_ok (snd (h_derive_rho (repeat 9 32) [5] (new_bip32 [1; 2]) (HCInterp (HCSimple [3; 4]%nat)) (HCInterp (HCSimple [3; 4]%nat)) ex_heap)) = true.
Proof.
  split; [repeat constructor|]. split; [repeat constructor|]. split; [repeat constructor|]. vm_compute. reflexivity.
Qed.
(** sharing of the constant is visible: changing the caller's scalar changes
    the random polynomial *)
Example C60_ex_shared_constant :
  match q_random_with_constant 0%nat 2 (mkrng (repeat 7 32) 0) ex_heap with
  | (h, Ok (p, _)) =>
    match fst (s_add 0%nat 0%nat 1%nat h) with
    | h' => negb (bytes_eqb (ex_read (h, Ok p)) (ex_read (h', Ok p)))
    end
  | _ => false
  end = true.
Proof. vm_compute. reflexivity. Qed.
