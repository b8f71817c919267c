(** Which cells the memory-level programs write, for every memory and all
    pointers, meaningful or not. *)
From Coq Require Import ZArith Lia Bool String List.
From Verif Require Import Base BaseFacts Zmod Fields ModelScalar ModelXmd ModelRo ModelPoly ModelGroup ModelCommit ModelZk ModelMega
  ModelDealing ModelKey ModelSign ModelHeap ModelHeapSign SpecHeap ProofHeap.
Import ListNotations.
Open Scope Z_scope.

Section Frame.
Context {X : Oracles} {GO : Grp} (ws : list ptr) (h0 : heap).
Definition okp (p : ptr) : Prop := In p ws \/ (List.length h0 <= p)%nat.
Definition frame {A} (m : M A) (P : A -> Prop) : Prop :=
  forall h, ext_but ws h0 h -> ext_but ws h0 (fst (m h)) /\ forall a, snd (m h) = Ok a -> P a.

Lemma fr_ret {A} (a : A) (P : A -> Prop) : P a -> frame (hret a) P.
Proof. intros H h E. split; [exact E|]. simpl. intros b [= <-]. exact H. Qed.
Lemma fr_err {A} (P : A -> Prop) : frame herr P.
Proof. intros h E. split; [exact E|]. discriminate. Qed.
Lemma fr_panic {A} (P : A -> Prop) : frame hpanic P.
Proof. intros h E. split; [exact E|]. discriminate. Qed.
Lemma fr_lift {A} (r : res A) : frame (hlift r) (fun _ => True).
Proof. intros h E. split; [exact E|auto]. Qed.
Lemma fr_bind {A B} (m : M A) (k : A -> M B) P Q : frame m P -> (forall a, P a -> frame (k a) Q) -> frame (hbind m k) Q.
Proof.
  intros F K h E. unfold hbind. destruct (F h E) as [E1 P1]. destruct (m h) as [h' x]. simpl in *.
  destruct x; simpl; try (split; [exact E1|discriminate]). apply K; auto.
Qed.
Lemma fr_mono {A} (m : M A) (P Q : A -> Prop) : (forall a, P a -> Q a) -> frame m P -> frame m Q.
Proof. intros I F h E. destruct (F h E). split; auto. Qed.
Lemma fr_true {A} (m : M A) (P : A -> Prop) : frame m P -> frame m (fun _ => True).
Proof. apply fr_mono. auto. Qed.
Lemma fr_alloc c : frame (alloc c) okp.
Proof.
  intros h E. split.
  - eapply ext_trans; [exact E|]. eapply ext_weak; [|apply app_ext]. simpl. tauto.
  - simpl. intros a [= <-]. right. apply E.
Qed.
Lemma okp_ext p h c : okp p -> ext_but ws h0 h -> ext_but ws h0 (upd h p c).
Proof.
  intros O [A B]. split; [|rewrite upd_length; exact B]. intros q d N G0. rewrite upd_get. destruct (Nat.eqb_spec p q); [|auto].
  subst q. destruct O as [O|O]; [contradiction|]. apply get_lt in G0. lia.
Qed.
Lemma fr_load_s p : frame (load_s p) (fun _ => True).
Proof. intros h E. unfold load_s. destruct (get h p) as [[]|]; split; auto. Qed.
Lemma fr_load_p p : frame (load_p p) (fun _ => True).
Proof. intros h E. unfold load_p. destruct (get h p) as [[]|]; split; auto. Qed.
Lemma fr_load_q p : frame (load_q p) (fun _ => True).
Proof. intros h E. unfold load_q. destruct (get h p) as [[]|]; split; auto. Qed.
Lemma fr_store_s p v : okp p -> frame (store_s p v) okp.
Proof. intros O h E. unfold store_s. destruct (get h p) as [[]|]; simpl; split; try exact E; try discriminate; [now apply okp_ext|]. now intros a [= <-]. Qed.
Lemma fr_store_p p v : okp p -> frame (store_p p v) okp.
Proof. intros O h E. unfold store_p. destruct (get h p) as [[]|]; simpl; split; try exact E; try discriminate; [now apply okp_ext|]. now intros a [= <-]. Qed.
Lemma fr_store_q p v : okp p -> frame (store_q p v) okp.
Proof. intros O h E. unfold store_q. destruct (get h p) as [[]|]; simpl; split; try exact E; try discriminate; [now apply okp_ext|]. now intros a [= <-]. Qed.
Lemma fr_map {A B} (f : A -> M B) P l : (forall a, In a l -> frame (f a) P) -> frame (hmap f l) (Forall P).
Proof.
  induction l as [|a l IH]; intros F; simpl; [apply fr_ret; constructor|].
  eapply fr_bind; [apply F; now left|]. intros b Pb. eapply fr_bind; [apply IH; intros; apply F; now right|]. intros bs Pbs.
  apply fr_ret. now constructor.
Qed.

Ltac fr_step :=
  match goal with
  | |- frame (hret _) _ => apply fr_ret
  | |- frame herr _ => apply fr_err
  | |- frame hpanic _ => apply fr_panic
  | |- frame (hlift _) _ => apply fr_lift
  | |- frame (alloc _) _ => apply fr_alloc
  | |- frame (load_s _) _ => apply fr_load_s
  | |- frame (load_p _) _ => apply fr_load_p
  | |- frame (load_q _) _ => apply fr_load_q
  | |- frame (store_s _ _) _ => apply fr_store_s
  | |- frame (store_p _ _) _ => apply fr_store_p
  | |- frame (store_q _ _) _ => apply fr_store_q
  | |- frame (hbind _ _) _ => eapply fr_bind; [|intros ? ?]
  | |- frame (if ?b then _ else _) _ => destruct b
  | |- frame (match ?x with _ => _ end) _ => destruct x
  end.
(** [fs] adds the known facts of this development *)
Create HintDb fr discriminated.
Ltac fs := repeat first [assumption | exact I | fr_step | solve [eauto 3 with fr]].

Lemma fr_s_new v : frame (s_new v) okp. Proof. apply fr_alloc. Qed.
Lemma fr_p_new v : frame (p_new v) okp. Proof. apply fr_alloc. Qed.
Lemma fr_q_new v : frame (q_new v) okp. Proof. apply fr_alloc. Qed.
Lemma fr_s_add r a b : okp r -> frame (s_add r a b) okp. Proof. intros. unfold s_add. fs. Qed.
Lemma fr_s_sub r a b : okp r -> frame (s_sub r a b) okp. Proof. intros. unfold s_sub. fs. Qed.
Lemma fr_s_mul r a b : okp r -> frame (s_mul r a b) okp. Proof. intros. unfold s_mul. fs. Qed.
Lemma fr_s_invert r a : okp r -> frame (s_invert r a) okp. Proof. intros. unfold s_invert. fs. Qed.
Lemma fr_s_negate r a : okp r -> frame (s_negate r a) okp. Proof. intros. unfold s_negate. fs. Qed.
Lemma fr_s_assign r a : okp r -> frame (s_assign r a) okp. Proof. intros. unfold s_assign. fs. Qed.
Hint Resolve fr_s_new fr_p_new fr_q_new fr_s_add fr_s_sub fr_s_mul fr_s_invert fr_s_negate fr_s_assign : fr.
Lemma fr_s_clone a : frame (s_clone a) okp. Proof. unfold s_clone. eapply fr_bind; [apply fr_s_new|intros ? ?]. fs. Qed.
Lemma fr_s_equal a b : frame (s_equal a b) (fun _ => True). Proof. unfold s_equal. fs. Qed.
Lemma fr_s_is_zero a : frame (s_is_zero a) (fun _ => True). Proof. unfold s_is_zero. fs. Qed.
Lemma fr_s_is_high a : frame (s_is_high a) (fun _ => True). Proof. unfold s_is_high. fs. Qed.
Lemma fr_p_add r a b : okp r -> frame (p_add r a b) okp. Proof. intros. unfold p_add. fs. Qed.
Lemma fr_p_sub r a b : okp r -> frame (p_sub r a b) okp. Proof. intros. unfold p_sub. fs. Qed.
Lemma fr_p_double r a : okp r -> frame (p_double r a) okp. Proof. intros. unfold p_double. fs. Qed.
Lemma fr_p_clone a : frame (p_clone a) okp. Proof. unfold p_clone, p_new. fs. Qed.
Lemma fr_p_scalar_mul r a b : okp r -> frame (p_scalar_mul r a b) okp. Proof. intros. unfold p_scalar_mul. fs. Qed.
Lemma fr_p_equal a b : frame (p_equal a b) (fun _ => True). Proof. unfold p_equal. fs. Qed.
Hint Resolve fr_s_clone fr_s_equal fr_s_is_zero fr_s_is_high fr_p_add fr_p_sub fr_p_double fr_p_clone fr_p_scalar_mul fr_p_equal : fr.
Lemma fr_p_node_loop s64 s : forall n r, okp r -> frame (p_node_loop s64 n s r) okp.
Proof. induction n; intros r O; simpl; [fs|]. eapply fr_bind; [apply fr_p_double; exact O|intros ? ?]. eapply fr_bind with (P := okp); [fs|intros ? ?]. auto. Qed.
Hint Resolve fr_p_node_loop : fr.
Lemma fr_p_mul_by_node_index s i : frame (p_mul_by_node_index s i) okp.
Proof. unfold p_mul_by_node_index. eapply fr_bind; [apply fr_p_new|intros ? ?]. fs. Qed.
Lemma fr_p_mul_points a b c d : frame (p_mul_points a b c d) okp.
Proof. unfold p_mul_points. eapply fr_bind; [apply fr_p_new|intros ? ?]. fs. Qed.
Hint Resolve fr_p_mul_by_node_index fr_p_mul_points : fr.
Lemma fr_p_pedersen a b : frame (p_pedersen a b) okp.
Proof. unfold p_pedersen. eapply fr_bind; [apply fr_p_new|intros ? ?]. eapply fr_bind; [apply fr_p_new|intros ? ?]. fs. Qed.
Lemma fr_p_mul_by_g a : frame (p_mul_by_g a) okp.
Proof. unfold p_mul_by_g. eapply fr_bind; [apply fr_p_new|intros ? ?]. fs. Qed.
Hint Resolve fr_p_pedersen fr_p_mul_by_g : fr.

(** a bind whose first part has a recorded fact *)
Ltac bd := eapply fr_bind; [solve [eauto 3 with fr]|intros ? ?].
Ltac go := repeat first [assumption | exact I | bd | fr_step | solve [eauto 3 with fr]].

(** ** poly/poly.go *)
Lemma fr_q_coeff p i : frame (q_coeff p i) okp. Proof. unfold q_coeff. go. Qed.
Hint Resolve fr_q_coeff : fr.
Lemma fr_q_non_zero p : frame (q_non_zero p) (fun _ => True).
Proof. unfold q_non_zero. eapply fr_bind; [apply fr_load_q|intros ? ?]. eapply fr_bind; [apply fr_map; intros; apply fr_s_is_zero|intros ? ?]. go. Qed.
Hint Resolve fr_q_non_zero : fr.
Lemma fr_q_add r a b : okp r -> frame (q_add r a b) okp.
Proof.
  intros O. unfold q_add. eapply fr_bind; [apply fr_load_q|intros ? ?]. eapply fr_bind; [apply fr_load_q|intros ? ?].
  eapply fr_bind; [apply fr_map with (P := okp); intros; go|intros ? ?]. go.
Qed.
Lemma fr_q_mul_row cs ca : Forall okp cs -> forall rc k, frame (q_mul_row cs k ca rc) (fun _ => True).
Proof.
  intros F. induction rc as [|cb rc IH]; intros k; simpl; [go|]. bd. bd.
  destruct (nth_error cs k) as [c|] eqn:E; [|go]. assert (okp c) by (rewrite Forall_forall in F; apply F; eapply nth_error_In; eauto).
  bd. apply IH.
Qed.
Lemma fr_q_mul_rows cs rc : Forall okp cs -> forall lc k, frame (q_mul_rows cs k lc rc) (fun _ => True).
Proof. intros F. induction lc as [|ca lc IH]; intros k; simpl; [go|]. eapply fr_bind; [apply fr_q_mul_row; exact F|intros ? ?]. apply IH. Qed.
Lemma fr_q_mul r a b : okp r -> frame (q_mul r a b) okp.
Proof.
  intros O. unfold q_mul. eapply fr_bind; [apply fr_load_q|intros ? ?]. eapply fr_bind; [apply fr_load_q|intros ? ?].
  eapply fr_bind; [apply fr_map with (P := okp); intros; go|intros ? ?]. eapply fr_bind; [apply fr_q_mul_rows; assumption|intros ? ?]. go.
Qed.
Lemma fr_q_mul_scalar r a b : okp r -> frame (q_mul_scalar r a b) okp.
Proof.
  intros O. unfold q_mul_scalar. eapply fr_bind; [apply fr_load_q|intros ? ?]. eapply fr_bind; [apply fr_load_q|intros ? ?].
  eapply fr_bind; [apply fr_map with (P := okp); intros; go|intros ? ?]. go.
Qed.
Lemma fr_q_horner x : forall cs ans, okp ans -> frame (q_horner x ans cs) okp.
Proof. induction cs as [|c cs IH]; intros ans O; simpl; [go|]. bd. bd. bd. auto. Qed.
Hint Resolve fr_q_add fr_q_mul fr_q_mul_scalar fr_q_horner : fr.
Lemma fr_q_evaluate_at p x : frame (q_evaluate_at p x) okp.
Proof. unfold q_evaluate_at. go. Qed.
Hint Resolve fr_q_evaluate_at : fr.
Lemma fr_q_equal_loop p r : forall is, frame (q_equal_loop p r is) (fun _ => True).
Proof. induction is as [|i is IH]; simpl; [go|]. bd. bd. bd. destruct a1; [exact IH|go]. Qed.
Lemma fr_q_equal p r : frame (q_equal p r) (fun _ => True).
Proof. unfold q_equal. eapply fr_bind; [apply fr_load_q|intros ? ?]. eapply fr_bind; [apply fr_load_q|intros ? ?]. apply fr_q_equal_loop. Qed.
Lemma fr_q_interpolate_loop one : forall ss po ba, okp po -> okp ba -> frame (q_interpolate_loop ss one po ba) okp.
Proof.
  induction ss as [|[sx sy] ss IH]; intros po ba P B; simpl; [go|]. bd. bd. bd. bd. bd. bd. bd. bd.
  match goal with |- frame (if ?b then _ else _) _ => destruct b end; [go|]. bd. bd. bd. bd. bd. bd. auto.
Qed.
Lemma fr_q_interpolate ss : frame (q_interpolate ss) okp.
Proof. destruct ss as [|[sx sy] ss]; simpl; [go|]. bd. bd. bd. bd. bd. bd. bd. bd. now apply fr_q_interpolate_loop. Qed.
Lemma fr_q_random_coeffs : forall n r, frame (q_random_coeffs n r) (fun l => Forall okp (fst l)).
Proof.
  induction n; intros r; simpl; [apply fr_ret; constructor|]. eapply fr_bind; [apply fr_lift|intros ? ?]. bd.
  eapply fr_bind; [apply IHn|intros ? ?]. apply fr_ret. now constructor.
Qed.
Lemma fr_q_random_with_constant c num r : frame (q_random_with_constant c num r) (fun a => okp (fst a)).
Proof. unfold q_random_with_constant. destruct (num =? 0); [go|]. destruct (num <? 0); [go|]. eapply fr_bind; [apply fr_q_random_coeffs|intros ? ?]. bd. now apply fr_ret. Qed.

(** ** poly/lagrange.go *)
Lemma fr_l_prefix value : forall xs tmp, okp tmp -> frame (l_prefix value tmp xs) (Forall okp).
Proof.
  induction xs as [|x xs IH]; intros tmp O; [simpl; apply fr_ret; constructor|].
  destruct xs as [|x2 xs]; [simpl; bd; apply fr_ret; constructor; auto|].
  change (l_prefix value tmp (x :: x2 :: xs)) with
    (let! n := s_clone tmp in let! x := s_clone x in let! d := s_sub x x value in let! tmp := s_mul tmp tmp d in
     let! ns := l_prefix value tmp (x2 :: xs) in hret (n :: ns)).
  bd. bd. bd. bd. eapply fr_bind; [apply IH; assumption|intros ? ?]. apply fr_ret. now constructor.
Qed.
Lemma fr_l_suffix value : forall xs ns tmp, okp tmp -> Forall okp ns -> frame (l_suffix value tmp xs ns) (fun _ => True).
Proof.
  induction xs as [|x xs IH]; intros ns tmp O F; simpl; [go|]. destruct ns as [|n ns]; [go|]. inversion F; subst.
  bd. bd. bd. bd. apply IH; assumption.
Qed.
Lemma fr_l_denominator xi : forall xs d, okp d -> frame (l_denominator xi d xs) okp.
Proof. induction xs as [|x xs IH]; intros d O; simpl; [go|]. bd. bd. destruct a0; [auto|]. bd. bd. auto. Qed.
Hint Resolve fr_l_denominator : fr.
Lemma fr_l_finish all : forall xs ns, Forall okp ns -> frame (l_finish all xs ns) (fun _ => True).
Proof.
  induction xs as [|x xs IH]; intros ns F; simpl; [go|]. destruct ns as [|n ns]; [go|]. inversion F; subst.
  bd. bd. bd. bd. match goal with |- frame (if ?b then _ else _) _ => destruct b end; [go|]. bd. now apply IH.
Qed.
Lemma Forall_rev' {A} (P : A -> Prop) l : Forall P l -> Forall P (rev l).
Proof. rewrite !Forall_forall. intros H x I. apply H. now apply in_rev. Qed.
Lemma Forall_tl {A} (P : A -> Prop) l : Forall P l -> Forall P (tl l).
Proof. destruct 1; simpl; auto. Qed.
Lemma fr_l_at_value value samples : frame (l_at_value value samples) (Forall okp).
Proof.
  unfold l_at_value. destruct samples as [|i [|j samples]]; [go|bd; apply fr_ret; auto|]. destruct (negb _); [go|].
  eapply fr_bind; [apply fr_map with (P := okp); intros; go|intros xs ?]. bd. eapply fr_bind; [apply fr_l_prefix; assumption|intros ns ?]. bd.
  eapply fr_bind; [apply fr_l_suffix; [assumption|apply Forall_tl, Forall_rev'; assumption]|intros ? ?].
  eapply fr_bind; [apply fr_l_finish; assumption|intros ? ?]. now apply fr_ret.
Qed.
Lemma fr_l_at_zero samples : frame (l_at_zero samples) (Forall okp).
Proof. unfold l_at_zero. bd. apply fr_l_at_value. Qed.
Lemma fr_l_sum_scalars : forall cs ys r, okp r -> frame (l_sum_scalars r cs ys) okp.
Proof. induction cs as [|c cs IH]; intros ys r O; simpl; [go|]. destruct ys; [go|]. bd. bd. bd. bd. auto. Qed.
Lemma fr_l_sum_points : forall cs ys r, okp r -> frame (l_sum_points r cs ys) okp.
Proof. induction cs as [|c cs IH]; intros ys r O; simpl; [go|]. destruct ys; [go|]. bd. bd. bd. bd. auto. Qed.
Hint Resolve fr_l_sum_scalars fr_l_sum_points : fr.
Lemma fr_l_interpolate_scalar cs ys : frame (l_interpolate_scalar cs ys) okp.
Proof. unfold l_interpolate_scalar. go. Qed.
Lemma fr_l_interpolate_point cs ys : frame (l_interpolate_point cs ys) okp.
Proof. unfold l_interpolate_point. go. Qed.
Hint Resolve fr_l_interpolate_scalar fr_l_interpolate_point : fr.

(** ** Commitments *)
Lemma fr_hc_points c : frame (hc_points c) (fun _ => True). Proof. unfold hc_points. go. Qed.
Lemma fr_hc_type c : frame (hc_type c) (fun _ => True). Proof. unfold hc_type. go. Qed.
Hint Resolve fr_hc_points fr_hc_type : fr.
Lemma fr_hc_constant_term c : frame (hc_constant_term c) okp. Proof. unfold hc_constant_term. go. Qed.
Lemma fr_h_eval_loop i : forall pts acc, okp acc -> frame (h_eval_loop i acc pts) okp.
Proof. induction pts; intros acc O; simpl; [go|]. bd. bd. auto. Qed.
Hint Resolve fr_hc_constant_term fr_h_eval_loop : fr.
Lemma fr_h_eval_points l i : frame (h_eval_points l i) okp. Proof. unfold h_eval_points. go. Qed.
Hint Resolve fr_h_eval_points : fr.
Lemma fr_hc_eval c i : frame (hc_eval c i) okp. Proof. unfold hc_eval. go. Qed.
Lemma fr_hc_check_opening c i o : frame (hc_check_opening c i o) (fun _ => True). Proof. unfold hc_check_opening. go. Qed.
Hint Resolve fr_hc_eval fr_hc_check_opening : fr.
Lemma fr_hc_return_if_consistent c i o : frame (hc_return_if_consistent c i o) (fun a => a = o).
Proof. unfold hc_return_if_consistent. bd. destruct a; [now apply fr_ret|apply fr_err]. Qed.
Definition okc (c : hcommitment) : Prop := match hunwrap c with HCSimple l | HCPedersen l => Forall okp l | _ => True end.
Lemma fr_hc_simple_create q n : frame (hc_simple_create q n) okc.
Proof. unfold hc_simple_create. bd. destruct (_ <? _); [go|]. eapply fr_bind; [apply fr_map with (P := okp); intros; go|intros ? ?]. now apply fr_ret. Qed.
Lemma fr_hc_pedersen_create q q2 n : frame (hc_pedersen_create q q2 n) okc.
Proof.
  unfold hc_pedersen_create. bd. destruct (_ <? _); [go|]. bd. destruct (_ <? _); [go|].
  eapply fr_bind; [apply fr_map with (P := okp); intros; go|intros ? ?]. now apply fr_ret.
Qed.

(** ** Key derivation and signing *)
Lemma fr_h_ckdpub chain : forall fuel pk index, frame (h_ckdpub fuel pk chain index) (fun a => okp (fst (fst a)) /\ okp (snd a)).
Proof.
  induction fuel as [|fuel IH]; intros pk index; cbn [h_ckdpub]; [intros h E; split; [exact E|discriminate]|].
  eapply fr_bind; [apply fr_load_p|intros ? ?]. eapply fr_bind; [apply fr_lift|intros ? ?]. bd. bd. bd. bd.
  eapply fr_bind; [apply fr_load_s|intros ? ?]. eapply fr_bind; [apply fr_load_p|intros ? ?].
  destruct (_ || _).
  - intros h E. destruct (IH pk (index_next index) h E) as [E1 _]. destruct (h_ckdpub fuel pk chain (index_next index) h) as [h' x].
    simpl in E1. destruct x; simpl; split; try exact E1; try discriminate; intros r [= <-]; split; assumption.
  - apply fr_ret. split; assumption.
Qed.
Lemma fr_h_tweak_loop : forall pa k chain off, okp off -> frame (h_tweak_loop pa k chain off) (fun a => okp (fst a)).
Proof.
  induction pa as [|i pa IH]; intros k chain off O; cbn [h_tweak_loop]; [now apply fr_ret|].
  eapply fr_bind; [apply fr_h_ckdpub|intros ? [? ?]]. bd. now apply IH.
Qed.
Lemma fr_h_derive_tweak pa pk : frame (h_derive_tweak pa pk) (fun a => okp (fst a)).
Proof. unfold h_derive_tweak. bd. bd. now apply fr_h_tweak_loop. Qed.
Lemma fr_h_presig_point c : frame (h_presig_point c) okp.
Proof. unfold h_presig_point. go. Qed.
Hint Resolve fr_h_presig_point : fr.
Definition okr (r : hrho) : Prop := okp (hr_rho r) /\ okp (hr_tweak r) /\ okp (hr_randomizer r) /\ okp (hr_presig r).
Lemma fr_h_derive_rho hashed rnd pa k ps : frame (h_derive_rho hashed rnd pa k ps) okr.
Proof.
  unfold h_derive_rho. bd. bd. eapply fr_bind; [apply fr_h_derive_tweak|intros ? ?].
  eapply fr_bind; [apply fr_load_p|intros ? ?]. eapply fr_bind; [apply fr_load_s|intros ? ?]. eapply fr_bind; [apply fr_lift|intros ? ?].
  bd. bd. bd. bd. bd. bd. eapply fr_bind; [apply fr_load_p|intros ? ?]. eapply fr_bind; [apply fr_lift|intros ? ?]. bd.
  apply fr_ret. repeat split; assumption.
Qed.
Definition oko (o : hopening) : Prop :=
  match o with
  | HOSimple p | HOSimplePtr p => okp p
  | HOPedersen p m | HOPedersenPtr p m => okp p /\ okp m
  | HONil => True
  end.
Lemma fr_h_nu t r l x : frame (h_nu t r l x) oko.
Proof.
  unfold h_nu. destruct x; try (apply fr_ret; exact I). destruct (h_lambda_parts l) as [[]|]; [|apply fr_panic].
  do 10 bd. apply fr_ret. split; assumption.
Qed.
Lemma fr_h_mu t l x : frame (h_mu t l x) oko.
Proof.
  unfold h_mu. destruct x; try (apply fr_ret; exact I). destruct (h_lambda_parts l) as [[]|]; [|apply fr_panic].
  do 6 bd. apply fr_ret. split; assumption.
Qed.
Lemma fr_h_new_share pa hashed rnd k ps l kl xl : frame (h_new_share pa hashed rnd k ps l kl xl) (fun s => oko (hs_num s) /\ oko (hs_den s)).
Proof.
  unfold h_new_share. eapply fr_bind; [apply fr_h_derive_rho|intros r (O1 & O2 & O3 & O4)]. eapply fr_bind; [apply fr_lift|intros ? ?].
  do 4 bd. eapply fr_bind; [apply fr_h_nu|intros ? ?]. eapply fr_bind; [apply fr_h_mu|intros ? ?]. apply fr_ret. split; assumption.
Qed.
Lemma fr_h_combine_sig pa hashed rnd k ps t ss : frame (h_combine_sig pa hashed rnd k ps t ss) (fun s => okp (hg_r s) /\ okp (hg_s s)).
Proof.
  unfold h_combine_sig. destruct (_ <? _); [apply fr_err|]. eapply fr_bind; [apply fr_h_derive_rho|intros r (O1 & O2 & O3 & O4)].
  eapply fr_bind; [apply fr_lift|intros ? ?]. eapply fr_bind; [apply fr_l_at_zero|intros ? ?]. do 5 bd.
  eapply fr_bind with (P := okp); [go|intros ? ?]. apply fr_ret. split; assumption.
Qed.
Lemma fr_h_sig_verify s pa hashed rnd k ps : frame (h_sig_verify s pa hashed rnd k ps) (fun _ => True).
Proof.
  unfold h_sig_verify. bd. eapply fr_bind with (P := fun _ => True); [go|intros z ?]. destruct z; [apply fr_err|].
  eapply fr_bind; [apply fr_lift|intros ? ?]. bd. eapply fr_bind; [apply fr_h_derive_rho|intros r (O1 & O2 & O3 & O4)]. bd.
  eapply fr_bind with (P := fun _ => True); [go|intros z ?]. destruct z; [apply fr_err|].
  do 11 bd. eapply fr_bind; [apply fr_load_p|intros ? ?]. destruct (is_infinity _); [apply fr_err|].
  eapply fr_bind; [apply fr_load_p|intros ? ?]. apply fr_lift.
Qed.
End Frame.

(** From the relative statement to the specification. *)
Section FrameSpec.
Context {X : Oracles} {GO : Grp}.
Lemma frame_writes {A} ws (m : M A) (P : heap -> A -> Prop) :
  (forall h0, frame ws h0 m (P h0)) -> writes_only ws m P.
Proof.
  intros F h. destruct (F h h (ext_refl ws h)) as [[E _] Q]. split; [|exact Q]. intros p L N.
  destruct (nth_error h p) as [c|] eqn:G1; [|apply nth_error_None in G1; lia]. now apply (E p c).
Qed.
Lemma okp_fresh h0 p : okp [] h0 p -> fresh h0 p.
Proof. intros [[]|L]. exact L. Qed.
End FrameSpec.
