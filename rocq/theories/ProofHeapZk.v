(** The memory-level zero-knowledge proofs of ModelHeapDeal compute the functions on values. *)
From Coq Require Import ZArith Lia Bool String List.
From Verif Require Import Base BaseFacts Zmod Fields ModelScalar ModelXmd ModelRo ModelPoly ModelGroup ModelCommit ModelZk ModelMega
  ModelDealing ModelComplaint ModelKey ModelSign ModelHeap ModelHeapSign ModelHeapDeal ProofPoly ProofHeap ProofHeapSign.
Import ListNotations.
Open Scope Z_scope.

Section HeapDealProofs.
Context {X : Oracles} {GO : Grp}.

Lemma f2_mono {A B} (P Q : A -> B -> Prop) la lb : (forall a b, P a b -> Q a b) -> Forall2 P la lb -> Forall2 Q la lb.
Proof. intros H F. induction F; constructor; auto. Qed.
Lemma bind_ret {A} (r : res A) : bind r (fun a => Ok a) = r.
Proof. now destruct r. Qed.
Lemma ref_lift_bind {A A' B'} ws h0 h (r : res A) (k : A -> M A') (f : A -> res B') R :
  ext_but ws h0 h -> (forall a, r = Ok a -> refines ws h0 h (k a) R (f a)) -> refines ws h0 h (hbind (hlift r) k) R (bind r f).
Proof. intros E K. unfold refines, hbind, hlift. destruct r; simpl; try (split; [exact E|exact I]). now apply K. Qed.
Lemma ref_lift_last {A A'} ws h0 h (r : res A) (k : A -> M A') R :
  ext_but ws h0 h -> (forall a, r = Ok a -> refines ws h0 h (k a) R (Ok a)) -> refines ws h0 h (hbind (hlift r) k) R r.
Proof. intros E K. rewrite <- (bind_ret r) at 2. now apply ref_lift_bind. Qed.
Lemma ref_bind0 {A B A' B'} ws h0 h (m : M A) (k : A -> M A') (R1 : heap -> A -> B -> Prop) (r1 : res B) (f : B -> res B') R :
  refines [] h h m R1 r1 -> ext_but ws h0 h ->
  (forall h' a b, ext_but [] h h' -> ext_but ws h0 h' -> R1 h' a b -> refines ws h0 h' (k a) R (f b)) ->
  refines ws h0 h (hbind m k) R (bind r1 f).
Proof. intros H E K. eapply ref_bind; [exact H|exact E|intros ? []|exact K]. Qed.
Lemma ref_last0 {A B} ws h0 h (m : M A) (R R' : heap -> A -> B -> Prop) (r : res B) :
  refines [] h h m R r -> ext_but ws h0 h -> (forall h' a b, ext_but [] h h' -> R h' a b -> R' h' a b) -> refines ws h0 h m R' r.
Proof. intros H E K. eapply ref_last; [exact H|exact E|intros ? []|exact K]. Qed.
Lemma hguard_ok h b : refines [] h h (hguard b) (fun _ _ _ => True) (guard b).
Proof. unfold hguard, guard. destruct b; [apply ref_ret|apply ref_err]; auto using ext_refl. Qed.
Lemma hmapr {A B A' B'} (Q : heap -> A -> B -> Prop) (R : heap -> A' -> B' -> Prop) (f : A -> M A') (g : B -> res B') :
  (forall h h' a b, ext h h' -> Q h a b -> Q h' a b) ->
  (forall h h' a b, ext h h' -> R h a b -> R h' a b) ->
  forall la lb h0, Forall2 (Q h0) la lb ->
  (forall h a b, ext h0 h -> Q h a b -> refines [] h h (f a) R (g b)) ->
  refines [] h0 h0 (hmap f la) (fun h' => Forall2 (R h')) (mapM g lb).
Proof.
  intros MQ MR. induction la as [|a la IH]; intros lb h0 F K; inversion F as [|x b y lb' Qab F']; subst; simpl.
  - apply ref_ret; [apply ext_refl|constructor].
  - eapply ref_bind0; [apply K; [apply ext_refl|exact Qab]|apply ext_refl|]. intros h1 a' b' E1 _ R1.
    eapply ref_bind0; [apply IH with (lb := lb')| |].
    + eapply f2_mono; [|exact F']. intros x y. apply MQ. exact E1.
    + intros h x y E. apply K. eapply ext_trans; eauto.
    + exact E1.
    + intros h2 la2 lb2 E2 E3 R2. apply ref_ret; [exact E3|]. constructor; [eapply MR; [exact E2|exact R1]|exact R2].
Qed.

(** ** Scalars and points *)
Lemma p_clone_mul_ok h P s v x : get h P = Some (VP v) -> get h s = Some (VS x) -> refines [] h h (p_clone_mul P s) (newp h) (Ok (smul x v)).
Proof.
  intros G1 G2. unfold p_clone_mul. lens. nx p_clone_ok. eapply ref_last; [eapply p_scalar_mul_ok; gt|eassumption|wr|].
  intros h' p w E' [-> G']. now split.
Qed.
Definition newsr (h : heap) : heap -> ptr * rng -> Fq * rng -> Prop := fun h' a b => news h h' (fst a) (fst b) /\ snd a = snd b.
Lemma s_random_ok h rn : refines [] h h (s_random rn) (newsr h) (random_scalar rn).
Proof.
  unfold s_random. apply ref_lift_last; [apply ext_refl|]. intros [v r] _.
  nx s_new_ok. apply ref_ret; [assumption|]. split; [split; assumption|reflexivity].
Qed.
End HeapDealProofs.
(** one call, any outcome on values *)
Ltac nb L := eapply ref_bind0; [eapply L; gt|base|];
  let h' := fresh "h" in let a := fresh "a" in let b := fresh "b" in let E := fresh "E" in let E0 := fresh "F" in let H := fresh "R" in
  intros h' a b E E0 H; res_facts H; cbv beta in *; lens.
(** a computation without memory *)
Ltac nl := apply ref_lift_bind; [base|]; intros ? _.
(** a random scalar *)
Ltac nr := eapply ref_bind0; [apply s_random_ok|base|];
  let h' := fresh "h" in let p := fresh "p" in let v := fresh "v" in let E := fresh "E" in let E0 := fresh "F" in
  let G := fresh "G" in let L := fresh "L" in
  intros h' [p ?] [v ?] E E0 [[G L] ?]; cbn [fst snd] in *; subst; lens.

(** the fields of the proofs *)
Ltac fld := cbn [hdl_challenge hdl_response dl_challenge dl_response heo_challenge heo_response eo_challenge eo_response
  hpr_challenge hpr_response1 hpr_response2 pr_challenge pr_response1 pr_response2].
Section HeapZk.
Context {X : Oracles} {GO : Grp}.
Definition dlv (h : heap) (p : hdlog) (v : dlog_proof) : Prop :=
  get h (hdl_challenge p) = Some (VS (dl_challenge v)) /\ get h (hdl_response p) = Some (VS (dl_response v)).
Definition eov (h : heap) (p : heqo) (v : eqo_proof) : Prop :=
  get h (heo_challenge p) = Some (VS (eo_challenge v)) /\ get h (heo_response p) = Some (VS (eo_response v)).
Definition prv (h : heap) (p : hprod) (v : prod_proof) : Prop :=
  get h (hpr_challenge p) = Some (VS (pr_challenge v)) /\ get h (hpr_response1 p) = Some (VS (pr_response1 v)) /\
  get h (hpr_response2 p) = Some (VS (pr_response2 v)).
Lemma dlv_ext h h' p v : ext h h' -> dlv h p v -> dlv h' p v.
Proof. intros E [A B]. split; eauto using (ext_get h). Qed.
Lemma eov_ext h h' p v : ext h h' -> eov h p v -> eov h' p v.
Proof. intros E [A B]. split; eauto using (ext_get h). Qed.
Lemma prv_ext h h' p v : ext h h' -> prv h p v -> prv h' p v.
Proof. intros E (A & B & C). repeat split; eauto using (ext_get h). Qed.

Lemma h_dlog_challenge_ok er h g hh gx hx c1 c2 ad gv hv gxv hxv c1v c2v :
  get h g = Some (VP gv) -> get h hh = Some (VP hv) -> get h gx = Some (VP gxv) -> get h hx = Some (VP hxv) ->
  get h c1 = Some (VP c1v) -> get h c2 = Some (VP c2v) ->
  refines [] h h (h_dlog_challenge er g hh gx hx c1 c2 ad) (news h) (er (dlog_challenge gv hv gxv hxv c1v c2v ad)).
Proof.
  intros. unfold h_dlog_challenge. do 6 nxl load_p_run. apply ref_lift_last; [base|]; intros ? _. apply s_new_ok.
Qed.
Lemma h_dlog_create_ok h seed x g hh ad xv gv hv : get h x = Some (VS xv) -> get h g = Some (VP gv) -> get h hh = Some (VP hv) ->
  refines [] h h (h_dlog_create seed x g hh ad) dlv (dlog_create seed xv gv hv ad).
Proof.
  intros Gx Gg Gh. unfold h_dlog_create, dlog_create. cbv zeta. lens. nx p_clone_mul_ok. nx p_clone_mul_ok. nl. nr.
  nx p_clone_mul_ok. nx p_clone_mul_ok.
  nb (h_dlog_challenge_ok or_panic). nx s_clone_ok. nx s_mul_ok. nx s_add_ok. apply ref_ret; [assumption|]. split; fld; gt.
Qed.
Lemma h_dlog_recover_ok h g hh gx hx pf gv hv gxv hxv pv :
  get h g = Some (VP gv) -> get h hh = Some (VP hv) -> get h gx = Some (VP gxv) -> get h hx = Some (VP hxv) -> dlv h pf pv ->
  refines [] h h (h_dlog_recover g hh gx hx pf) (fun h' a b => get h' (fst a) = Some (VP (fst b)) /\ get h' (snd a) = Some (VP (snd b)))
    (Ok (dlog_recover gv hv gxv hxv pv)).
Proof.
  intros G1 G2 G3 G4 [D1 D2]. unfold h_dlog_recover, dlog_recover. lens.
  nx p_clone_mul_ok. nx p_clone_mul_ok. nx p_clone_mul_ok. nx p_sub_ok. nx p_clone_mul_ok. nx p_sub_ok.
  apply ref_ret; [assumption|]. split; cbn [fst snd]; gt.
Qed.
Lemma h_dlog_verify_ok h pf g hh gx hx ad gv hv gxv hxv pv :
  get h g = Some (VP gv) -> get h hh = Some (VP hv) -> get h gx = Some (VP gxv) -> get h hx = Some (VP hxv) -> dlv h pf pv ->
  refines [] h h (h_dlog_verify pf g hh gx hx ad) (fun _ _ _ => True) (dlog_verify pv gv hv gxv hxv ad).
Proof.
  intros G1 G2 G3 G4 D. unfold h_dlog_verify, dlog_verify.
  eapply ref_step; [eapply h_dlog_recover_ok; eassumption|base|wr|]. intros h1 [rg rh] E1 F1 [R1 R2].
  destruct (dlog_recover gv hv gxv hxv pv) as [rgv rhv]. cbn [fst snd] in *. destruct D as [D1 D2]. lens.
  nb (h_dlog_challenge_ok (fun r => r)). nx s_equal_ok. subst. eapply ref_last0; [apply hguard_ok|assumption|auto].
Qed.
Lemma h_dlog_clone_ok h pf v : dlv h pf v -> refines [] h h (h_dlog_clone pf) dlv (Ok v).
Proof.
  intros [D1 D2]. unfold h_dlog_clone. lens. nx s_clone_ok. nx s_clone_ok. apply ref_ret; [assumption|]. split; fld; gt.
Qed.
Lemma h_eqo_challenge_ok h g hh a b c ad gv hv av bv cv :
  get h g = Some (VP gv) -> get h hh = Some (VP hv) -> get h a = Some (VP av) -> get h b = Some (VP bv) -> get h c = Some (VP cv) ->
  refines [] h h (h_eqo_challenge g hh a b c ad) (news h) (eqo_challenge gv hv av bv cv ad).
Proof. intros. unfold h_eqo_challenge. do 5 nxl load_p_run. apply ref_lift_last; [base|]; intros ? _. apply s_new_ok. Qed.
Lemma h_eqo_create_ok h seed s m ad sv mv : get h s = Some (VS sv) -> get h m = Some (VS mv) ->
  refines [] h h (h_eqo_create seed s m ad) eov (eqo_create seed sv mv ad).
Proof.
  intros Gs Gm. unfold h_eqo_create, eqo_create. cbv zeta. lens. nx p_new_ok. nx p_new_ok. nx p_pedersen_ok. nx p_mul_by_g_ok. nl. nr.
  nx p_clone_mul_ok. nb h_eqo_challenge_ok. nx s_clone_ok. nx s_mul_ok. nx s_add_ok. apply ref_ret; [assumption|]. split; fld; gt.
Qed.
Lemma h_eqo_recover_ok h hh a b pf hv av bv pv : get h hh = Some (VP hv) -> get h a = Some (VP av) -> get h b = Some (VP bv) -> eov h pf pv ->
  refines [] h h (h_eqo_recover hh a b pf) (newp h) (Ok (eqo_recover hv av bv pv)).
Proof.
  intros G1 G2 G3 [D1 D2]. unfold h_eqo_recover, eqo_recover. lens. nx p_clone_ok. nx p_sub_ok. nx p_clone_mul_ok. nx p_clone_mul_ok.
  eapply ref_last; [eapply p_sub_ok; gt|eassumption|wr|]. intros h' p w E' [-> G']. split; [exact G'|lia].
Qed.
Lemma h_eqo_verify_ok h pf p s ad pv sv v : get h p = Some (VP pv) -> get h s = Some (VP sv) -> eov h pf v ->
  refines [] h h (h_eqo_verify pf p s ad) (fun _ _ _ => True) (eqo_verify v pv sv ad).
Proof.
  intros G1 G2 D. unfold h_eqo_verify, eqo_verify. lens. nx p_new_ok. nx p_new_ok. nx p_clone_ok. nx p_clone_ok.
  match goal with |- refines _ _ ?x _ _ _ => rename x into hx end. assert (Fx : ext h hx) by assumption.
  eapply ref_step; [eapply h_eqo_recover_ok; [gt|gt|gt|eapply eov_ext; [exact Fx|exact D]]|base|wr|]. intros h5 rc E5 F5 [G5 L5].
  destruct D as [D1 D2]. lens. nb h_eqo_challenge_ok. nx s_equal_ok. subst. eapply ref_last0; [apply hguard_ok|assumption|auto].
Qed.
Lemma h_eqo_clone_ok h pf v : eov h pf v -> refines [] h h (h_eqo_clone pf) eov (Ok v).
Proof.
  intros [D1 D2]. unfold h_eqo_clone. lens. nx s_clone_ok. nx s_clone_ok. apply ref_ret; [assumption|]. split; fld; gt.
Qed.
Lemma h_prod_challenge_ok h g hh l r pr c1 c2 ad gv hv lv rv pv c1v c2v :
  get h g = Some (VP gv) -> get h hh = Some (VP hv) -> get h l = Some (VP lv) -> get h r = Some (VP rv) -> get h pr = Some (VP pv) ->
  get h c1 = Some (VP c1v) -> get h c2 = Some (VP c2v) ->
  refines [] h h (h_prod_challenge g hh l r pr c1 c2 ad) (news h) (prod_challenge gv hv lv rv pv c1v c2v ad).
Proof. intros. unfold h_prod_challenge. do 7 nxl load_p_run. apply ref_lift_last; [base|]; intros ? _. apply s_new_ok. Qed.
Lemma h_prod_create_ok h seed l r rm p pm ad lv rv rmv pv pmv :
  get h l = Some (VS lv) -> get h r = Some (VS rv) -> get h rm = Some (VS rmv) -> get h p = Some (VS pv) -> get h pm = Some (VS pmv) ->
  refines [] h h (h_prod_create seed l r rm p pm ad) prv (prod_create seed lv rv rmv pv pmv ad).
Proof.
  intros G1 G2 G3 G4 G5. unfold h_prod_create, prod_create. cbv zeta. lens. nx p_new_ok. nx p_new_ok. nx p_clone_mul_ok.
  nx p_mul_points_ok. nx p_mul_points_ok. nl. nr. nx p_clone_mul_ok. nr. nx p_mul_points_ok. nb h_prod_challenge_ok.
  nx s_clone_ok. nx s_mul_ok. nx s_add_ok. nx s_clone_ok. nx s_clone_ok. nx s_mul_ok. nx s_sub_ok. nx s_mul_ok. nx s_add_ok.
  apply ref_ret; [assumption|]. split; [|split]; fld; gt.
Qed.
Lemma h_prod_recover_ok h hh l r pr pf hv lv rv prvv v :
  get h hh = Some (VP hv) -> get h l = Some (VP lv) -> get h r = Some (VP rv) -> get h pr = Some (VP prvv) -> prv h pf v ->
  refines [] h h (h_prod_recover hh l r pr pf) (fun h' a b => get h' (fst a) = Some (VP (fst b)) /\ get h' (snd a) = Some (VP (snd b)))
    (Ok (prod_recover hv lv rv prvv v)).
Proof.
  intros G1 G2 G3 G4 (D1 & D2 & D3). unfold h_prod_recover, prod_recover. lens. nx p_mul_by_g_ok. nx p_clone_mul_ok. nx p_sub_ok.
  nx p_mul_points_ok. nx p_clone_mul_ok. nx p_sub_ok. apply ref_ret; [assumption|]. split; cbn [fst snd]; gt.
Qed.
Lemma h_prod_verify_ok h pf l r pr ad lv rv pv v :
  get h l = Some (VP lv) -> get h r = Some (VP rv) -> get h pr = Some (VP pv) -> prv h pf v ->
  refines [] h h (h_prod_verify pf l r pr ad) (fun _ _ _ => True) (prod_verify v lv rv pv ad).
Proof.
  intros G1 G2 G3 D. unfold h_prod_verify, prod_verify. lens. nx p_new_ok. nx p_new_ok.
  match goal with |- refines _ _ ?x _ _ _ => rename x into hx end. assert (Fx : ext h hx) by assumption.
  eapply ref_step; [eapply h_prod_recover_ok; [gt|gt|gt|gt|eapply prv_ext; [exact Fx|exact D]]|base|wr|]. intros h1 [rg rh] E1 F1 [R1 R2].
  destruct (prod_recover genH lv rv pv v) as [rgv rhv]. cbn [fst snd] in *. destruct D as (D1 & D2 & D3). lens.
  nb h_prod_challenge_ok. nx s_equal_ok. subst. eapply ref_last0; [apply hguard_ok|assumption|auto].
Qed.
End HeapZk.
