(** Proofs about the memory-level model of commitments, key derivation and signing. *)
From Coq Require Import ZArith Lia Bool String List.
From Verif Require Import Base BaseFacts Zmod Fields ModelScalar ModelXmd ModelRo ModelPoly ModelGroup ModelCommit ModelZk ModelMega
  ModelDealing ModelKey ModelSign ModelHeap ModelHeapSign ProofPoly ProofHeap.
Import ListNotations.
Open Scope Z_scope.

(** record that pointers are in range and memories only grow *)
Ltac lens := repeat match goal with
  | H : get ?h ?p = Some ?c |- _ =>
    lazymatch goal with _ : (p < List.length h)%nat |- _ => fail | _ => pose proof (get_lt h p c H) end
  | H : ext_but ?ws ?h ?h' |- _ =>
    lazymatch goal with _ : (List.length h <= List.length h')%nat |- _ => fail | _ => pose proof (proj2 H) end
  end.
(** find the content of a cell through the memories since it was written *)
Ltac gt :=
  match goal with
  | H : get ?h ?p = Some _ |- get ?h ?p = Some _ => exact H
  | E : ext_but ?ws ?k ?h |- get ?h ?p = Some _ => apply (but_get ws k h p _ E); [solve [nin]|gt]
  end.
(** what a step's result relation says *)
Ltac res_facts H :=
  lazymatch type of H with
  | news _ _ _ _ => let A := fresh "G" in let B := fresh "L" in destruct H as [A B]
  | newp _ _ _ _ => let A := fresh "G" in let B := fresh "L" in destruct H as [A B]
  | iss _ _ _ _ => let A := fresh "G" in destruct H as [-> A]
  | isp _ _ _ _ => let A := fresh "G" in destruct H as [-> A]
  | _ => idtac
  end.
Ltac base := first [eassumption | apply ext_refl].
(** one call whose outcome on values is Ok *)
Ltac nx L := eapply ref_step; [eapply L; gt|base|lens; wr|];
  let h' := fresh "h" in let a := fresh "a" in let E := fresh "E" in let E0 := fresh "F" in let H := fresh "R" in
  intros h' a E E0 H; res_facts H; cbv beta in *; lens.
Ltac nxl L := eapply ref_run; [apply L; gt|].

Section HeapSignProofs.
Context {X : Oracles} {GO : Grp}.

Lemma ref_last {A B} ws h0 h (m : M A) (R R' : heap -> A -> B -> Prop) (r : res B) ws1 :
  refines ws1 h h m R r -> ext_but ws h0 h ->
  (forall p, In p ws1 -> In p ws \/ (List.length h0 <= p)%nat) ->
  (forall h' a b, ext_but ws1 h h' -> R h' a b -> R' h' a b) ->
  refines ws h0 h m R' r.
Proof.
  intros [[A1 B1] Q] [A0 B0] F K. split.
  - split; [|lia]. intros p c N G0. apply A1; [|apply A0; auto].
    intros I. destruct (F _ I) as [I'|I']; [auto|]. apply get_lt in G0. lia.
  - destruct (snd (m h)), r; simpl in *; try contradiction; auto. apply K; [split; assumption|exact Q].
Qed.

Lemma lift_ok {A} h (r : res A) : refines [] h h (hlift r) (fun _ a b => a = b) r.
Proof. apply ref_lift. apply ext_refl. Qed.

(** ** Points *)
Lemma p_node_loop_ok s64 s P : forall n h rs w, get h s = Some (VP P) -> get h rs = Some (VP w) -> s <> rs ->
  refines [rs] h h (p_node_loop s64 n s rs) (isp rs) (Ok (node_loop s64 n P w)).
Proof.
  induction n as [|n IH]; intros h rs w Gs Gr N; simpl.
  - apply ref_ret; [apply ext_refl|]. now split.
  - nx p_double_ok. destruct (Z.odd _).
    + nx p_add_ok. eapply ref_from; [apply IH; [gt|gt|exact N]|eassumption|auto].
    + eapply ref_run; [reflexivity|]. eapply ref_from; [apply IH; [gt|gt|exact N]|eassumption|auto].
Qed.
Lemma p_mul_by_node_index_ok h s P i : get h s = Some (VP P) ->
  refines [] h h (p_mul_by_node_index s i) (newp h) (Ok (mul_by_node_index P i)).
Proof.
  intros Gs. unfold p_mul_by_node_index, mul_by_node_index. lens. nx p_new_ok.
  eapply ref_last; [apply p_node_loop_ok; [gt|gt|lia]|eassumption|wr|]. intros h' p v E' [-> G']. now split.
Qed.
Lemma p_mul_points_ok h p1 s1 p2 s2 A a B b : get h p1 = Some (VP A) -> get h s1 = Some (VS a) -> get h p2 = Some (VP B) -> get h s2 = Some (VS b) ->
  refines [] h h (p_mul_points p1 s1 p2 s2) (newp h) (Ok (mul_points A a B b)).
Proof.
  intros G1 G2 G3 G4. unfold p_mul_points. lens. nx p_new_ok. nxl load_p_run. nxl load_s_run. nxl load_p_run. nxl load_s_run.
  eapply ref_last; [eapply store_p_ok; gt|eassumption|wr|]. intros h' p v E' [-> G']. now split.
Qed.
Lemma p_pedersen_ok h s1 s2 a b : get h s1 = Some (VS a) -> get h s2 = Some (VS b) ->
  refines [] h h (p_pedersen s1 s2) (newp h) (Ok (pedersen a b)).
Proof.
  intros G1 G2. unfold p_pedersen. lens. nx p_new_ok. nx p_new_ok.
  eapply ref_last; [eapply p_mul_points_ok; gt|eassumption|wr|]. intros h' p v E' [Gp Lp]. split; [exact Gp|lia].
Qed.
Lemma p_mul_by_g_ok h s a : get h s = Some (VS a) -> refines [] h h (p_mul_by_g s) (newp h) (Ok (mul_by_g a)).
Proof.
  intros G1. unfold p_mul_by_g. lens. nx p_new_ok.
  eapply ref_last; [eapply p_scalar_mul_ok; gt|eassumption|wr|]. intros h' p v E' [-> G']. now split.
Qed.
(** new point cells *)
Definition newps (h : heap) : heap -> list ptr -> list G -> Prop :=
  fun h' ps vs => pvals h' ps vs /\ Forall (fun p => (List.length h <= p)%nat) ps /\ NoDup ps.
Lemma hmapp_ok {A} (f : A -> M ptr) (g : A -> res G) (l : list A) h0 :
  (forall h a, ext h0 h -> In a l -> refines [] h h (f a) (newp h) (g a)) ->
  refines [] h0 h0 (hmap f l) (newps h0) (mapM g l).
Proof.
  revert h0. induction l as [|a l IH]; intros h0 F; simpl.
  - apply ref_ret; [apply ext_refl|]. split; [constructor|]. split; constructor.
  - eapply ref_bind; [apply F; [apply ext_refl|now left]|apply ext_refl|wr|]. intros h1 p v E1 _ [P L].
    eapply ref_bind; [apply IH; intros h b E I; apply F; [eapply ext_trans; eauto|now right]|exact E1|wr|].
    intros h2 ps vs E2 E3 (S & Fr & N). apply ref_ret; [exact E3|].
    assert (Lt := get_lt _ _ _ P). split; [constructor; [exact (ext_get h1 h2 p _ E2 P)|exact S]|]. split.
    + constructor; [exact L|]. eapply Forall_impl; [|exact Fr]. intros q Hq. destruct E1. cbn [hr_rho hr_tweak hr_randomizer hr_presig ro_rho ro_tweak ro_randomizer ro_presig fst snd] in *. lia.
    + constructor; [|exact N]. intros I. rewrite Forall_forall in Fr. specialize (Fr _ I). simpl in Fr. lia.
Qed.
Lemma hmapp_new {A} (f : A -> M ptr) (g : A -> G) (l : list A) h0 :
  (forall h a, ext h0 h -> In a l -> refines [] h h (f a) (newp h) (Ok (g a))) ->
  refines [] h0 h0 (hmap f l) (newps h0) (Ok (map g l)).
Proof. intros F. rewrite <- (mapM_total (fun a => Ok (g a)) g) by reflexivity. now apply hmapp_ok. Qed.

(** ** Openings and commitments *)
Definition oval (h : heap) (o : hopening) (v : opening) : Prop :=
  match o, v with
  | HOSimple p, OSimple a | HOSimplePtr p, OSimplePtr a => get h p = Some (VS a)
  | HOPedersen p m, OPedersen a b | HOPedersenPtr p m, OPedersenPtr a b => get h p = Some (VS a) /\ get h m = Some (VS b)
  | HONil, ONil => True
  | _, _ => False
  end.
Fixpoint cval (h : heap) (c : hcommitment) (v : commitment) : Prop :=
  match c, v with
  | HCSimple l, CSimple vs | HCPedersen l, CPedersen vs => pvals h l vs
  | HCSum c, CSum v | HCInterp c, CInterp v => cval h c v
  | HCNil, CNil => True
  | _, _ => False
  end.
Lemma oval_ext h h' o v : ext h h' -> oval h o v -> oval h' o v.
Proof. intros E. destruct o, v; simpl; intuition auto using (ext_get h). Qed.
Lemma cval_ext h h' c : ext h h' -> forall v, cval h c v -> cval h' c v.
Proof. intros E. induction c; destruct v; simpl; intuition eauto using pvals_ext. Qed.
Lemma hunwrap_ok h c : forall v, cval h c v -> cval h (hunwrap c) (unwrap v).
Proof. induction c; destruct v; simpl; try contradiction; auto. Qed.
Lemma hunwrap_flat c : match hunwrap c with HCSum _ | HCInterp _ => False | _ => True end.
Proof. induction c; simpl; auto. Qed.
Lemma hc_points_ok h c v : cval h c v -> refines [] h h (hc_points c) (fun h' l vs => h' = h /\ pvals h l vs) (c_points v).
Proof.
  intros C. apply hunwrap_ok in C. assert (F := hunwrap_flat c). unfold hc_points, c_points.
  destruct (hunwrap c), (unwrap v); simpl in C; try contradiction;
  first [apply ref_ret; [apply ext_refl|now split]|apply ref_panic; apply ext_refl].
Qed.
Lemma hc_type_ok h c v : cval h c v -> refines [] h h (hc_type c) (fun h' a b => h' = h /\ a = b) (c_type v).
Proof.
  intros C. apply hunwrap_ok in C. assert (F := hunwrap_flat c). unfold hc_type, c_type.
  destruct (hunwrap c), (unwrap v); simpl in C; try contradiction;
  first [apply ref_ret; [apply ext_refl|now split]|apply ref_panic; apply ext_refl].
Qed.
Lemma hc_constant_term_ok h c v : cval h c v -> refines [] h h (hc_constant_term c) (newp h) (c_constant_term v).
Proof.
  intros C. unfold hc_constant_term, c_constant_term. eapply ref_bind; [apply hc_points_ok; exact C|apply ext_refl|wr|].
  intros h' l vs _ _ [-> P]. destruct P as [|p P l vs Gp _]; [apply ref_panic; apply ext_refl|now apply p_clone_ok].
Qed.
Lemma h_eval_loop_ok h0 i : forall pts vs, pvals h0 pts vs -> forall h acc w, ext h0 h -> get h acc = Some (VP w) -> (List.length h0 <= acc)%nat ->
  refines [] h0 h (h_eval_loop i acc pts) (newp h0) (Ok (fold_left (fun acc pt => gadd (mul_by_node_index acc i) pt) vs w)).
Proof.
  intros pts vs S. induction S as [|pt P pts vs Gp S IH]; intros h acc w E Ga La; simpl.
  - apply ref_ret; [exact E|]. now split.
  - unfold ext in E. lens. nx p_mul_by_node_index_ok. nx p_add_ok. apply IH; [eassumption|gt|lia].
Qed.
Lemma pvals_rev h l vs : pvals h l vs -> pvals h (rev l) (rev vs).
Proof. unfold pvals. induction 1; simpl; [constructor|]. apply Forall2_app; auto. Qed.
Lemma h_eval_points_ok h l vs i : pvals h l vs -> refines [] h h (h_eval_points l i) (newp h) (eval_points vs i).
Proof.
  intros P. unfold h_eval_points, eval_points. destruct P as [|p P l vs Gp S]; [apply ref_panic; apply ext_refl|].
  nx p_new_ok. apply (h_eval_loop_ok h i (rev (p :: l)) (rev (P :: vs))); [|exact E|gt|lia].
  apply pvals_rev. now constructor.
Qed.
Lemma hc_eval_ok h c v i : cval h c v -> refines [] h h (hc_eval c i) (newp h) (c_eval v i).
Proof.
  intros C. unfold hc_eval, c_eval. eapply ref_bind; [apply hc_points_ok; exact C|apply ext_refl|wr|].
  intros h' l vs _ _ [-> P]. now apply h_eval_points_ok.
Qed.
Lemma hc_check_opening_ok h c v i o ov : cval h c v -> oval h o ov ->
  refines [] h h (hc_check_opening c i o) (fun _ a b => a = b) (c_check_opening v i ov).
Proof.
  intros C O. apply hunwrap_ok in C. assert (F := hunwrap_flat c). unfold hc_check_opening, c_check_opening.
  destruct (hunwrap c), (unwrap v); simpl in C; try contradiction; destruct o, ov; simpl in O; try contradiction;
  try (apply ref_panic; apply ext_refl).
  - eapply ref_bind; [apply h_eval_points_ok; exact C|apply ext_refl|wr|]. intros h1 e ev E1 F1 [Ge Le]. lens.
    nx p_mul_by_g_ok. eapply ref_last; [eapply p_equal_ok; gt|eassumption|wr|auto].
  - destruct O as [O1 O2]. eapply ref_bind; [apply h_eval_points_ok; exact C|apply ext_refl|wr|]. intros h1 e ev E1 F1 [Ge Le]. lens.
    nx p_pedersen_ok. eapply ref_last; [eapply p_equal_ok; gt|eassumption|wr|auto].
Qed.
Lemma hc_return_if_consistent_ok h c v i o ov : cval h c v -> oval h o ov ->
  refines [] h h (hc_return_if_consistent c i o) (fun h' a b => a = o /\ oval h' a b) (c_return_if_consistent v i ov).
Proof.
  intros C O. unfold hc_return_if_consistent, c_return_if_consistent. eapply ref_bind; [eapply hc_check_opening_ok; eauto|apply ext_refl|wr|].
  intros h' a b E1 E2 ->. destruct b; [apply ref_ret; [exact E1|split; [reflexivity|eapply oval_ext; eauto]]|now apply ref_err].
Qed.
(** a commitment made of new points *)
Definition newc (h : heap) : heap -> hcommitment -> commitment -> Prop :=
  fun h' c v => cval h' c v /\ match hunwrap c with
                               | HCSimple l | HCPedersen l => Forall (fun p => (List.length h <= p)%nat) l /\ NoDup l
                               | _ => True
                               end.
Lemma hc_simple_create_ok h q vs num : qval h q vs -> refines [] h h (hc_simple_create q num) (newc h) (simple_create vs num).
Proof.
  intros Q. unfold hc_simple_create, simple_create. eapply ref_run; [apply q_non_zero_run; exact Q|].
  destruct (_ <? _); [apply ref_err; apply ext_refl|].
  eapply ref_step; [apply hmapp_new with (g := fun i => mul_by_g (coeff vs i))|apply ext_refl|wr|].
  - intros h1 i E _. eapply ref_step; [apply q_coeff_ok; eapply qval_ext; eauto|apply ext_refl|wr|]. intros h2 x E1 F1 [G1 L1]. lens.
    eapply ref_last; [eapply p_mul_by_g_ok; gt|eassumption|wr|]. intros h' p v E' [Gp Lp]. split; [exact Gp|lia].
  - intros h' ps E1 _ (A & B & C). apply ref_ret; [exact E1|]. split; [exact A|]. now split.
Qed.
Lemma hc_pedersen_create_ok h q q2 vs ms num : qval h q vs -> qval h q2 ms ->
  refines [] h h (hc_pedersen_create q q2 num) (newc h) (pedersen_create vs ms num).
Proof.
  intros Q Q2. unfold hc_pedersen_create, pedersen_create. eapply ref_run; [apply q_non_zero_run; exact Q|].
  destruct (num <? Z.of_nat (non_zero_coefficients vs)); [apply ref_err; apply ext_refl|]. simpl.
  eapply ref_run; [apply q_non_zero_run; exact Q2|]. destruct (_ <? _); [apply ref_err; apply ext_refl|].
  eapply ref_step; [apply hmapp_new with (g := fun i => pedersen (coeff vs i) (coeff ms i))|apply ext_refl|wr|].
  - intros h1 i E _. eapply ref_step; [apply q_coeff_ok; eapply qval_ext; eauto|apply ext_refl|wr|]. intros h2 x E1 F1 [G1 L1].
    eapply ref_step; [apply q_coeff_ok; eapply qval_ext; [exact E1|]; eapply qval_ext; eauto|exact F1|wr|]. intros h3 y E2 F2 [G2 L2]. lens.
    eapply ref_last; [eapply p_pedersen_ok; gt|eassumption|wr|]. intros h' p v E' [Gp Lp]. split; [exact Gp|lia].
  - intros h' ps E1 _ (A & B & C). apply ref_ret; [exact E1|]. split; [exact A|]. now split.
Qed.

(** ** Key derivation *)
Definition newkc (h : heap) : heap -> ptr * bytes * ptr -> G * bytes * Fq -> Prop :=
  fun h' a b => newp h h' (fst (fst a)) (fst (fst b)) /\ snd (fst a) = snd (fst b) /\ news h h' (snd a) (snd b).
Lemma h_ckdpub_ok chain : forall fuel h pk P index, get h pk = Some (VP P) ->
  refines [] h h (h_ckdpub fuel pk chain index) (newkc h) (ckdpub fuel P chain index).
Proof.
  induction fuel as [|fuel IH]; intros h pk P index Gp; cbn [h_ckdpub ckdpub]; [split; [apply ext_refl|exact I]|].
  lens. nxl load_p_run. eapply ref_bind; [apply lift_ok|apply ext_refl|wr|]. intros h1 off' off E1 F1 ->. lens.
  nx s_new_ok. nx p_clone_ok. nx p_mul_by_g_ok. nx p_add_ok. nxl load_s_run. nxl load_p_run.
  assert (K : newkc h h4 (a0, skipn 32 (hmac512 chain (ser P ++ index)), a) (gadd P (mul_by_g off), skipn 32 (hmac512 chain (ser P ++ index)), off)).
  { split; [split; [gt|cbn [fst snd]; lia]|]. split; [reflexivity|]. split; [gt|cbn [fst snd]; lia]. }
  destruct (_ || _).
  - assert (Gp4 : get h4 pk = Some (VP P)) by gt. destruct (IH h4 pk P (index_next index) Gp4) as [E' Q].
    unfold refines. destruct (h_ckdpub fuel pk chain (index_next index) h4) as [h5 x]. simpl in E', Q.
    assert (E5 : ext_but [] h h5) by (eapply ext_trans; eassumption).
    assert (K' : newkc h h5 (a0, skipn 32 (hmac512 chain (ser P ++ index)), a) (gadd P (mul_by_g off), skipn 32 (hmac512 chain (ser P ++ index)), off)).
    { destruct K as ([K1 K2] & K3 & [K4 K5]). split; [split; [exact (ext_get _ _ _ _ E' K1)|exact K2]|]. split; [exact K3|].
      split; [exact (ext_get _ _ _ _ E' K4)|exact K5]. }
    destruct x, (ckdpub fuel P chain (index_next index)); simpl in Q; try contradiction; simpl; split; auto.
  - apply ref_ret; assumption.
Qed.
Definition newtw (h : heap) : heap -> ptr * bytes -> Fq * bytes -> Prop :=
  fun h' a b => news h h' (fst a) (fst b) /\ snd a = snd b.
Lemma h_tweak_loop_ok h0 : forall pa h k P chain off ov, ext h0 h -> get h k = Some (VP P) -> get h off = Some (VS ov) -> (List.length h0 <= off)%nat ->
  refines [] h0 h (h_tweak_loop pa k chain off) (newtw h0) (tweak_loop pa P chain ov).
Proof.
  induction pa as [|i pa IH]; intros h k P chain off ov E Gk Go Lo; simpl.
  - apply ref_ret; [exact E|]. split; [now split|reflexivity].
  - unfold ext in *. eapply ref_bind; [apply h_ckdpub_ok; exact Gk|exact E|wr|]. intros h1 [[nk nc] no] [[K C] O] E1 F1 ([A1 A2] & A3 & [A4 A5]).
    cbn [hr_rho hr_tweak hr_randomizer hr_presig ro_rho ro_tweak ro_randomizer ro_presig fst snd] in *. subst nc. lens. nx s_add_ok. apply IH; [assumption|gt|gt|exact Lo].
Qed.
Lemma h_derive_tweak_ok h pa pk P : get h pk = Some (VP P) -> refines [] h h (h_derive_tweak pa pk) (newtw h) (derive_tweak pa P).
Proof.
  intros Gp. unfold h_derive_tweak, derive_tweak. lens. nx p_clone_ok. nx s_new_ok. apply h_tweak_loop_ok; [assumption|gt|gt|lia].
Qed.

(** ** Signing *)
Lemma h_presig_point_ok h c v : cval h c v -> refines [] h h (h_presig_point c) (newp h) (presig_point (mktranscript v)).
Proof.
  intros C. unfold h_presig_point, presig_point. simpl. destruct c, v; simpl in C; try contradiction; try (apply ref_err; apply ext_refl).
  eapply ref_bind; [apply hc_type_ok; exact C|apply ext_refl|wr|]. intros h' a b E1 E2 [-> ->].
  destruct (b =? ct_simple); [|apply ref_err; exact E2].
  destruct c, v; simpl in C; try contradiction; first [apply hc_constant_term_ok; exact C|apply ref_panic; exact E2].
Qed.
Definition newrho (h : heap) : heap -> hrho -> rho_out -> Prop := fun h' a b =>
  news h h' (hr_rho a) (ro_rho b) /\ news h h' (hr_tweak a) (ro_tweak b) /\
  news h h' (hr_randomizer a) (ro_randomizer b) /\ newp h h' (hr_presig a) (ro_presig b).
Lemma h_derive_rho_ok h hashed rnd pa k kv ps pv : cval h k kv -> cval h ps pv ->
  refines [] h h (h_derive_rho hashed rnd pa k ps) (newrho h) (derive_rho hashed rnd pa (mktranscript kv) (mktranscript pv)).
Proof.
  intros K P. unfold h_derive_rho, derive_rho.
  eapply ref_bind; [apply h_presig_point_ok; exact P|apply ext_refl|wr|]. intros h1 p Pp E1 F1 [G1 L1].
  eapply ref_bind; [apply hc_constant_term_ok; eapply cval_ext; eauto|exact F1|wr|]. intros h2 kt KT E2 F2 [G2 L2].
  eapply ref_bind; [apply h_derive_tweak_ok; exact G2|exact F2|wr|]. intros h3 t T E3 F3 [[G3 L3] _]. lens.
  nxl load_p_run. nxl load_s_run. cbv zeta.
  eapply ref_bind; [apply lift_ok|exact F3|wr|]. intros h4 rz' rz E4 F4 ->. lens.
  nx s_new_ok. nx p_clone_ok. nx p_new_ok. nx p_new_ok. nx p_scalar_mul_ok. nx p_add_ok. nxl load_p_run.
  cbv zeta. eapply ref_bind; [apply lift_ok|eassumption|wr|]. intros h11 rv' rv E11 F11 ->. lens.
  nx s_new_ok. apply ref_ret; [eassumption|]. split; [|split; [|split]]; (split; [simpl; gt|simpl; lia]).
Qed.

Definition newo (h : heap) : heap -> hopening -> opening -> Prop := fun h' a b =>
  oval h' a b /\ match a with
                 | HOSimple p | HOSimplePtr p => (List.length h <= p)%nat
                 | HOPedersen p m | HOPedersenPtr p m => (List.length h <= p)%nat /\ (List.length h <= m)%nat /\ p <> m
                 | HONil => True
                 end.
Definition newshare (h : heap) : heap -> hshare -> sig_share -> Prop := fun h' a b =>
  newo h h' (hs_num a) (ss_num b) /\ newo h h' (hs_den a) (ss_den b).
Lemma newo_ext h0 h h' a b : ext h h' -> newo h0 h a b -> newo h0 h' a b.
Proof. intros E [A B]. split; [eapply oval_ext; eauto|exact B]. Qed.
Lemma newo_older h0 h1 h a b : (List.length h0 <= List.length h1)%nat -> newo h1 h a b -> newo h0 h a b.
Proof. intros L [A B]. split; [exact A|]. destruct a; auto; lia. Qed.

Lemma h_nu_ok h theta rho tv rv l lv xl xlv : get h theta = Some (VS tv) -> get h rho = Some (VS rv) -> oval h l lv -> oval h xl xlv ->
  refines [] h h (h_nu theta rho l xl) (newo h)
    match xlv with
    | OPedersen kv km =>
      match lambda_parts lv with
      | Some (lv, lm) => Ok (OPedersen (fadd (fmul tv lv) (fmul rv kv)) (fadd (fmul tv lm) (fmul rv km)))
      | None => Panic
      end
    | _ => Ok ONil
    end.
Proof.
  intros Gt Gr OL OX. unfold h_nu. destruct xl, xlv; simpl in OX; try contradiction; try (apply ref_ret; [apply ext_refl|now split]).
  destruct l, lv; simpl in OL; try contradiction; simpl; try (apply ref_panic; apply ext_refl).
  destruct OL as [OL1 OL2]. destruct OX as [OX1 OX2]. lens.
  nx s_clone_ok. nx s_mul_ok. nx s_clone_ok. nx s_mul_ok. nx s_add_ok.
  nx s_clone_ok. nx s_mul_ok. nx s_clone_ok. nx s_mul_ok. nx s_add_ok.
  apply ref_ret; [eassumption|]. split; [split; gt|]. split; [|split]; lia.
Qed.
Lemma h_mu_ok h rz rv l lv kl klv : get h rz = Some (VS rv) -> oval h l lv -> oval h kl klv ->
  refines [] h h (h_mu rz l kl) (newo h)
    match klv with
    | OPedersen kv km =>
      match lambda_parts lv with
      | Some (lv, lm) => Ok (OPedersen (fadd (fmul rv lv) kv) (fadd (fmul rv lm) km))
      | None => Panic
      end
    | _ => Ok ONil
    end.
Proof.
  intros Gr OL OX. unfold h_mu. destruct kl, klv; simpl in OX; try contradiction; try (apply ref_ret; [apply ext_refl|now split]).
  destruct l, lv; simpl in OL; try contradiction; simpl; try (apply ref_panic; apply ext_refl).
  destruct OL as [OL1 OL2]. destruct OX as [OX1 OX2]. lens.
  nx s_clone_ok. nx s_mul_ok. nx s_add_ok. nx s_clone_ok. nx s_mul_ok. nx s_add_ok.
  apply ref_ret; [eassumption|]. split; [split; gt|]. split; [|split]; lia.
Qed.
Lemma h_new_share_ok h hashed rnd pa k kv ps pv l lv kl klv xl xlv : cval h k kv -> cval h ps pv ->
  oval h l lv -> oval h kl klv -> oval h xl xlv ->
  refines [] h h (h_new_share pa hashed rnd k ps l kl xl) (newshare h)
    (new_share pa hashed rnd (mktranscript kv) (mktranscript pv) lv klv xlv).
Proof.
  intros K P OL OKL OXL. unfold h_new_share, new_share.
  eapply ref_bind; [apply h_derive_rho_ok; eauto|apply ext_refl|wr|].
  intros h1 [rho tw rz prs] [rhov twv rzv prv] E1 F1 ([Ga La] & [Gb Lb] & [Gc Lc] & [Gd Ld]). cbn [hr_rho hr_tweak hr_randomizer hr_presig ro_rho ro_tweak ro_randomizer ro_presig fst snd] in *.
  eapply ref_bind; [apply lift_ok|exact F1|wr|]. intros h2 ev' ev E2 F2 ->. lens.
  nx s_new_ok. nx s_clone_ok. nx s_mul_ok. nx s_add_ok.
  match goal with |- refines _ _ ?x _ _ _ => rename x into hc end.
  assert (Fc : ext_but [] h hc) by assumption.
  eapply ref_bind; [apply h_nu_ok; [gt|gt|eapply oval_ext; [exact Fc|exact OL]|eapply oval_ext; [exact Fc|exact OXL]]|eassumption|wr|].
  intros h8 nu nuv E8 F8 N8. lens.
  eapply ref_bind; [apply h_mu_ok; [gt|eapply oval_ext; [exact F8|exact OL]|eapply oval_ext; [exact F8|exact OKL]]|exact F8|wr|].
  intros h9 mu muv E9 F9 N9. lens.
  apply ref_ret; [exact F9|]. split; simpl.
  - eapply newo_ext; [exact E9|]. eapply newo_older; [|exact N8]. lia.
  - eapply newo_older; [|exact N9]. lia.
Qed.

Definition share_val (h : heap) (a : Z * hshare) (b : Z * sig_share) : Prop :=
  fst a = fst b /\ oval h (hs_num (snd a)) (ss_num (snd b)) /\ oval h (hs_den (snd a)) (ss_den (snd b)).
Lemma share_val_ext h h' a b : ext h h' -> share_val h a b -> share_val h' a b.
Proof. intros E (A & B & C). split; [exact A|]. split; eapply oval_ext; eauto. Qed.
Lemma shares_fst h ss vs : Forall2 (share_val h) ss vs -> map fst ss = map fst vs.
Proof. induction 1 as [|a b ss vs [E _] _ IH]; simpl; congruence. Qed.
Lemma shares_num h ss vs : Forall2 (share_val h) ss vs ->
  svals h (flat_map (fun e => h_num_sample (snd e)) ss) (flat_map (fun e => num_sample (snd e)) vs).
Proof.
  induction 1 as [|a b ss vs (_ & N & _) _ IH]; simpl; [constructor|]. apply Forall2_app; [|exact IH].
  unfold h_num_sample, num_sample. destruct (hs_num (snd a)), (ss_num (snd b)); simpl in N; try contradiction; try constructor; try constructor. apply N.
Qed.
Lemma shares_den h ss vs : Forall2 (share_val h) ss vs ->
  svals h (flat_map (fun e => h_den_sample (snd e)) ss) (flat_map (fun e => den_sample (snd e)) vs).
Proof.
  induction 1 as [|a b ss vs (_ & _ & N) _ IH]; simpl; [constructor|]. apply Forall2_app; [|exact IH].
  unfold h_den_sample, den_sample. destruct (hs_den (snd a)), (ss_den (snd b)); simpl in N; try contradiction; try constructor; try constructor. apply N.
Qed.
Lemma shares_length h ss vs : Forall2 (share_val h) ss vs -> List.length ss = List.length vs.
Proof. induction 1; simpl; auto. Qed.
Definition newsig (h : heap) : heap -> hsig -> signature -> Prop := fun h' a b =>
  news h h' (hg_r a) (sg_r b) /\ news h h' (hg_s a) (sg_s b) /\ hg_r a <> hg_s a.
Lemma h_combine_sig_ok h hashed rnd pa k kv ps pv t ss vs : cval h k kv -> cval h ps pv -> Forall2 (share_val h) ss vs ->
  refines [] h h (h_combine_sig pa hashed rnd k ps t ss) (newsig h)
    (combine_sig pa hashed rnd (mktranscript kv) (mktranscript pv) t vs).
Proof.
  intros K P S. unfold h_combine_sig, combine_sig. rewrite (shares_length _ _ _ S).
  destruct (_ <? _); [apply ref_err; apply ext_refl|].
  eapply ref_bind; [apply h_derive_rho_ok; eauto|apply ext_refl|wr|].
  intros h1 [rho tw rz prs] [rhov twv rzv prv] E1 F1 ([Ga La] & [Gb Lb] & [Gc Lc] & [Gd Ld]). cbn [hr_rho hr_tweak hr_randomizer hr_presig ro_rho ro_tweak ro_randomizer ro_presig fst snd] in *.
  eapply ref_bind; [apply lift_ok|exact F1|wr|]. intros h2 u' u E2 F2 _.
  assert (T : Forall2 (share_val h) (if t <=? 0 then [] else ss) (if t <=? 0 then [] else vs)) by (destruct (t <=? 0); [constructor|exact S]).
  revert T. generalize (if t <=? 0 then [] else ss) (if t <=? 0 then [] else vs). intros ts tv T.
  rewrite (shares_fst _ _ _ T). lens.
  eapply ref_bind; [apply l_at_zero_ok|exact F2|wr|]. intros h3 cs cv E3 F3 (Sc & Fc & Nc). lens.
  eapply ref_bind; [apply l_interpolate_scalar_ok; [exact Sc|eapply svals_ext; [exact F3|apply shares_num; exact T]]|exact F3|wr|].
  intros h4 num nv E4 F4 [Gn Ln]. lens.
  eapply ref_bind; [apply l_interpolate_scalar_ok; [eapply svals_ext; [exact E4|exact Sc]|eapply svals_ext; [exact F4|apply shares_den; exact T]]|exact F4|wr|].
  intros h5 den dv E5 F5 [Gde Lde]. lens.
  nx s_invert_ok. nx s_mul_ok. nx s_is_high_ok. subst a.
  destruct (is_high _).
  - nx s_negate_ok. apply ref_ret; [eassumption|]. split; [split; [simpl; gt|simpl; lia]|]. split; [split; [simpl; gt|simpl; lia]|simpl; lia].
  - eapply ref_run; [reflexivity|]. apply ref_ret; [eassumption|]. split; [split; [simpl; gt|simpl; lia]|]. split; [split; [simpl; gt|simpl; lia]|simpl; lia].
Qed.
Lemma h_sig_verify_ok h hashed rnd pa k kv ps pv r s rv sv : cval h k kv -> cval h ps pv -> get h r = Some (VS rv) -> get h s = Some (VS sv) ->
  refines [] h h (h_sig_verify (mkhsig r s) pa hashed rnd k ps) (fun _ _ _ => True)
    (sig_verify (mksig rv sv) pa hashed rnd (mktranscript kv) (mktranscript pv)).
Proof.
  intros K P Gr Gs. unfold h_sig_verify, sig_verify. simpl.
  nx s_is_zero_ok. subst a.
  assert (Z : refines [] h0 h0 (if feqb rv fzero then hret true else s_is_zero s) (fun _ a b => a = b) (Ok (feqb rv fzero || feqb sv fzero))).
  { destruct (feqb rv fzero); [apply ref_ret; [apply ext_refl|reflexivity]|]. simpl. apply s_is_zero_ok. gt. }
  eapply ref_step; [exact Z|eassumption|wr|]. intros h1 b E1 F1 ->. destruct (_ || _); [apply ref_err; exact F1|].
  eapply ref_bind; [apply lift_ok|exact F1|wr|]. intros h2 mv' mv E2 F2 ->. lens.
  nx s_new_ok.
  eapply ref_bind; [apply h_derive_rho_ok; eapply cval_ext; [eassumption|exact K|eassumption|exact P]|eassumption|wr|].
  intros h4 [rho tw rz prs] [rhov twv rzv prv] E4 F4 ([Ga La] & [Gb Lb] & [Gc Lc] & [Gd Ld]). cbn [hr_rho hr_tweak hr_randomizer hr_presig ro_rho ro_tweak ro_randomizer ro_presig fst snd] in *. lens.
  nx s_equal_ok. subst a0.
  match goal with |- refines _ _ ?hc _ _ _ => assert (Z2 : refines [] hc hc (if feqb rv rhov then s_is_high s else hret true) (fun _ a b => a = b) (Ok (negb (feqb rv rhov) || is_high sv))) end.
  { destruct (feqb rv rhov); [|apply ref_ret; [apply ext_refl|reflexivity]]. simpl. apply s_is_high_ok. gt. }
  eapply ref_step; [exact Z2|eassumption|wr|]. intros h6 b E6 F6 ->. lens. destruct (_ || _); [apply ref_err; exact F6|].
  eapply ref_bind; [apply hc_constant_term_ok; eapply cval_ext; [exact F6|exact K]|exact F6|wr|]. intros h7 mk MK E7 F7 [Gm Lm]. lens.
  nx p_mul_by_g_ok. nx p_add_ok. nx s_clone_ok. nx s_invert_ok. nx s_clone_ok. nx s_mul_ok. nx s_clone_ok. nx s_mul_ok. nx p_new_ok. nx p_mul_points_ok.
  nxl load_p_run. destruct (is_infinity _); [apply ref_err; eassumption|]. nxl load_p_run.
  eapply ref_mono; [|apply ref_lift; eassumption]. auto.
Qed.
End HeapSignProofs.
