(** Proofs about the memory-level model: every function refines the function
    on values and writes only cells it has allocated itself (or its receiver). *)
From Coq Require Import ZArith Lia Bool String List.
From Verif Require Import Base BaseFacts Zmod Fields ModelScalar ModelXmd ModelRo ModelPoly ModelGroup ModelCommit ModelZk ModelMega
  ModelDealing ModelKey ModelSign ModelHeap ProofPoly.
Import ListNotations.
Open Scope Z_scope.

Section HeapProofs.
Context {X : Oracles} {GO : Grp}.

(** [h'] has all cells of [h] unchanged, except perhaps those in [ws]. *)
Definition ext_but (ws : list ptr) (h h' : heap) : Prop :=
  (forall p c, ~ In p ws -> get h p = Some c -> get h' p = Some c) /\ (List.length h <= List.length h')%nat.
Definition ext := ext_but [].

Lemma ext_refl ws h : ext_but ws h h.
Proof. split; auto. Qed.
Lemma ext_trans ws h h1 h2 : ext_but ws h h1 -> ext_but ws h1 h2 -> ext_but ws h h2.
Proof. intros [A B] [C D]. split; [intros; apply C; auto|lia]. Qed.
Lemma ext_weak ws ws' h h' : (forall p, In p ws -> In p ws') -> ext_but ws h h' -> ext_but ws' h h'.
Proof. intros S [A B]. split; [|exact B]. intros p c N G. apply A; auto. Qed.
Lemma get_lt h p c : get h p = Some c -> (p < List.length h)%nat.
Proof. intros E. apply nth_error_Some. unfold get in E. congruence. Qed.
(** writing only cells that [h0] does not have *)
Lemma ext_fresh ws h0 h h' : ext h0 h -> ext_but ws h h' -> Forall (fun w => (List.length h0 <= w)%nat) ws -> ext h0 h'.
Proof.
  intros [A B] [C D] F. split; [|lia]. intros p c _ G0. apply C; [|apply A; auto].
  intros I. rewrite Forall_forall in F. specialize (F _ I). apply get_lt in G0. lia.
Qed.
Lemma upd_length h p c : List.length (upd h p c) = List.length h.
Proof. revert p; induction h; destruct p; simpl; auto. Qed.
Lemma upd_get h p c q : get (upd h p c) q = if Nat.eqb p q then (match get h q with Some _ => Some c | None => None end) else get h q.
Proof.
  revert p q. induction h as [|d h IH]; intros p q; [unfold get; simpl; destruct q; simpl; destruct (Nat.eqb p _); reflexivity|].
  destruct p, q; simpl; auto.
Qed.
Lemma upd_same h p c d : get h p = Some d -> get (upd h p c) p = Some c.
Proof. intros E. rewrite upd_get, Nat.eqb_refl, E. reflexivity. Qed.
Lemma upd_ext h p c : ext_but [p] h (upd h p c).
Proof.
  split; [|rewrite upd_length; lia]. intros q d N E. rewrite upd_get. destruct (Nat.eqb_spec p q); [|exact E].
  subst. exfalso. apply N. now left.
Qed.
Lemma app_ext h l : ext h (h ++ l).
Proof. split; [|rewrite app_length; lia]. intros p c _ E. unfold get in *. rewrite nth_error_app1; [exact E|]. apply nth_error_Some. congruence. Qed.
Lemma app_new h c : get (h ++ [c]) (List.length h) = Some c.
Proof. unfold get. rewrite nth_error_app2, Nat.sub_diag by lia. reflexivity. Qed.

(** outcomes agree, results related *)
Definition rel {A B} (R : A -> B -> Prop) (x : res A) (r : res B) : Prop :=
  match x, r with
  | Ok a, Ok b => R a b
  | Err, Err | Panic, Panic | Diverge, Diverge => True
  | _, _ => False
  end.
(** Started in [h], [m] ends in a memory that keeps the cells of [h0] except
    [ws], with an outcome related to [r]. *)
Definition refines {A B} (ws : list ptr) (h0 h : heap) (m : M A) (R : heap -> A -> B -> Prop) (r : res B) : Prop :=
  ext_but ws h0 (fst (m h)) /\ rel (R (fst (m h))) (snd (m h)) r.

Lemma ref_bind {A B A' B'} ws ws1 h0 h (m : M A) (k : A -> M A') R1 (r1 : res B) (f : B -> res B') R :
  refines ws1 h h m R1 r1 ->
  ext_but ws h0 h ->
  (forall p, In p ws1 -> In p ws \/ (List.length h0 <= p)%nat) ->
  (forall h' a b, ext_but ws1 h h' -> ext_but ws h0 h' -> R1 h' a b -> refines ws h0 h' (k a) R (f b)) ->
  refines ws h0 h (hbind m k) R (bind r1 f).
Proof.
  intros [E Q] E0 F K. unfold refines, hbind in *. destruct (m h) as [h' x]. simpl in E, Q.
  assert (E1 : ext_but ws h0 h').
  { destruct E0 as [A0 B0]. destruct E as [A1 B1]. split; [|lia]. intros p c N G0. apply A1; [|apply A0; auto].
    intros I. destruct (F _ I) as [I'|I']; [auto|]. apply get_lt in G0. lia. }
  destruct x as [a| | |], r1 as [b| | |]; simpl in Q; try contradiction; simpl; try (split; [exact E1|exact I]).
  apply K; auto.
Qed.
(** the first computation is an [Ok] on the value side *)
Lemma ref_step {A B A' B'} ws ws1 h0 h (m : M A) (k : A -> M A') (R1 : heap -> A -> B -> Prop) (b : B) (r : res B') R :
  refines ws1 h h m R1 (Ok b) ->
  ext_but ws h0 h ->
  (forall p, In p ws1 -> In p ws \/ (List.length h0 <= p)%nat) ->
  (forall h' a, ext_but ws1 h h' -> ext_but ws h0 h' -> R1 h' a b -> refines ws h0 h' (k a) R r) ->
  refines ws h0 h (hbind m k) R r.
Proof.
  intros H1 H2 H3 H4. change r with (bind (Ok b) (fun _ => r)).
  apply (ref_bind ws ws1 h0 h m k (fun h a b' => b' = b /\ R1 h a b) (Ok b) (fun _ => r)); auto.
  - destruct H1 as [E Q]. split; [exact E|]. destruct (snd (m h)); simpl in *; auto.
  - intros h' a b' E1 E2 [_ H]. apply H4; auto.
Qed.
Lemma ref_seq {A B A' B'} ws h0 h (m : M A) (k : A -> M A') (R1 : heap -> A -> B -> Prop) (r1 : res B) (f : B -> res B') R :
  refines ws h0 h m R1 r1 ->
  (forall h' a b, ext_but ws h0 h' -> R1 h' a b -> refines ws h0 h' (k a) R (f b)) ->
  refines ws h0 h (hbind m k) R (bind r1 f).
Proof.
  intros [E Q] K. unfold refines, hbind in *. destruct (m h) as [h' x]. simpl in E, Q.
  destruct x as [a| | |], r1 as [b| | |]; simpl in Q; try contradiction; simpl; try (split; [exact E|exact I]).
  apply K; auto.
Qed.
Lemma ref_seq_ok {A B A' B'} ws h0 h (m : M A) (k : A -> M A') (R1 : heap -> A -> B -> Prop) (b : B) (r : res B') R :
  refines ws h0 h m R1 (Ok b) ->
  (forall h' a, ext_but ws h0 h' -> R1 h' a b -> refines ws h0 h' (k a) R r) ->
  refines ws h0 h (hbind m k) R r.
Proof.
  intros H K. change r with (bind (Ok b) (fun _ => r)).
  apply (ref_seq ws h0 h m k (fun h a b' => b' = b /\ R1 h a b) (Ok b) (fun _ => r)); auto.
  - destruct H as [E Q]. split; [exact E|]. destruct (snd (m h)); simpl in *; auto.
  - intros h' a b' E1 [_ H']. apply K; auto.
Qed.
Lemma ref_ret {A B} ws h0 h (a : A) (b : B) (R : heap -> A -> B -> Prop) : ext_but ws h0 h -> R h a b -> refines ws h0 h (hret a) R (Ok b).
Proof. intros E H. split; [exact E|exact H]. Qed.
Lemma ref_err {A B} ws h0 h R : ext_but ws h0 h -> @refines A B ws h0 h herr R Err.
Proof. intros E. split; [exact E|exact I]. Qed.
Lemma ref_panic {A B} ws h0 h R : ext_but ws h0 h -> @refines A B ws h0 h hpanic R Panic.
Proof. intros E. split; [exact E|exact I]. Qed.
Lemma ref_lift {A} ws h0 h (r : res A) : ext_but ws h0 h -> refines ws h0 h (hlift r) (fun _ a b => a = b) r.
Proof. intros E. split; [exact E|]. destruct r; simpl; auto. Qed.
Lemma ref_mono {A B} ws h0 h (m : M A) (R R' : heap -> A -> B -> Prop) (r : res B) :
  (forall h' a b, R h' a b -> R' h' a b) -> refines ws h0 h m R r -> refines ws h0 h m R' r.
Proof. intros I [E Q]. split; [exact E|]. destruct (snd (m h)), r; simpl in *; auto. Qed.
Lemma ref_conseq {A B B'} ws ws1 h0 h (m : M A) (R : heap -> A -> B -> Prop) (R' : heap -> A -> B' -> Prop) b b' :
  refines ws1 h h m R (Ok b) -> ext_but ws h0 h ->
  (forall p, In p ws1 -> In p ws \/ (List.length h0 <= p)%nat) ->
  (forall h' a, ext_but ws1 h h' -> R h' a b -> R' h' a b') ->
  refines ws h0 h m R' (Ok b').
Proof.
  intros [[A1 B1] Q] [A0 B0] F K. split.
  - split; [|lia]. intros p c N G0. apply A1; [|apply A0; auto].
    intros I. destruct (F _ I) as [I'|I']; [auto|]. apply get_lt in G0. lia.
  - destruct (snd (m h)); simpl in *; try contradiction. apply K; [split; assumption|exact Q].
Qed.
(** from a local statement to one about an earlier memory *)
Lemma ref_from {A B} ws ws1 h0 h (m : M A) R (r : res B) :
  refines ws1 h h m R r -> ext_but ws h0 h ->
  (forall p, In p ws1 -> In p ws \/ (List.length h0 <= p)%nat) ->
  refines ws h0 h m R r.
Proof.
  intros [[A1 B1] Q] [A0 B0] F. split; [|exact Q]. split; [|lia]. intros p c N G0. apply A1; [|apply A0; auto].
  intros I. destruct (F _ I) as [I'|I']; [auto|]. apply get_lt in G0. lia.
Qed.

(** ** Reading arguments *)
Definition svals (h : heap) (ps : list ptr) (vs : list Fq) : Prop := Forall2 (fun p v => get h p = Some (VS v)) ps vs.
Definition pvals (h : heap) (ps : list ptr) (vs : list G) : Prop := Forall2 (fun p v => get h p = Some (VP v)) ps vs.
(** a polynomial pointer with the values of its coefficients *)
Definition qval (h : heap) (p : ptr) (vs : list Fq) : Prop := exists cs, get h p = Some (VQ cs) /\ svals h cs vs.

Lemma ext_get h h' p c : ext h h' -> get h p = Some c -> get h' p = Some c.
Proof. intros [A _] E. apply A; auto. Qed.
Lemma but_get ws h h' p c : ext_but ws h h' -> ~ In p ws -> get h p = Some c -> get h' p = Some c.
Proof. intros [A _] N E. apply A; auto. Qed.
Lemma svals_ext h h' ps vs : ext h h' -> svals h ps vs -> svals h' ps vs.
Proof. intros E. induction 1; constructor; auto. now apply (ext_get h). Qed.
Lemma pvals_ext h h' ps vs : ext h h' -> pvals h ps vs -> pvals h' ps vs.
Proof. intros E. induction 1; constructor; auto. now apply (ext_get h). Qed.
Lemma svals_but ws h h' ps vs : ext_but ws h h' -> (forall p, In p ws -> ~ In p ps) -> svals h ps vs -> svals h' ps vs.
Proof.
  intros E N S. induction S; constructor.
  - apply (but_get ws h); auto. intros I. apply (N _ I). now left.
  - apply IHS. intros p I1 I2. apply (N _ I1). now right.
Qed.
Lemma qval_ext h h' p vs : ext h h' -> qval h p vs -> qval h' p vs.
Proof. intros E (cs & G1 & S). exists cs. split; [now apply (ext_get h)|now apply (svals_ext h)]. Qed.
Lemma svals_lt h ps vs : svals h ps vs -> Forall (fun p => (p < List.length h)%nat) ps.
Proof. induction 1; constructor; auto. eapply get_lt; eauto. Qed.
Lemma svals_length h ps vs : svals h ps vs -> List.length ps = List.length vs.
Proof. induction 1; simpl; auto. Qed.
Lemma pvals_length h ps vs : pvals h ps vs -> List.length ps = List.length vs.
Proof. induction 1; simpl; auto. Qed.
Lemma svals_nth h ps vs i p : svals h ps vs -> nth_error ps i = Some p -> exists v, nth_error vs i = Some v /\ get h p = Some (VS v).
Proof. intros S. revert i. induction S; intros [|i] E; simpl in *; try discriminate; eauto. inversion E; subst. eauto. Qed.

(** a result cell that did not exist in [h] *)
Definition news (h : heap) : heap -> ptr -> Fq -> Prop := fun h' a v => get h' a = Some (VS v) /\ (List.length h <= a)%nat.
Definition newp (h : heap) : heap -> ptr -> G -> Prop := fun h' a v => get h' a = Some (VP v) /\ (List.length h <= a)%nat.
(** the result is the pointer [p] itself, holding the value *)
Definition iss (p : ptr) : heap -> ptr -> Fq -> Prop := fun h' a v => a = p /\ get h' p = Some (VS v).
Definition isp (p : ptr) : heap -> ptr -> G -> Prop := fun h' a v => a = p /\ get h' p = Some (VP v).

Lemma s_new_ok h v : refines [] h h (s_new v) (news h) (Ok v).
Proof. split; [apply app_ext|]. split; [apply app_new|lia]. Qed.
Lemma p_new_ok h v : refines [] h h (p_new v) (newp h) (Ok v).
Proof. split; [apply app_ext|]. split; [apply app_new|lia]. Qed.
Lemma load_s_run h p v : get h p = Some (VS v) -> load_s p h = (h, Ok v).
Proof. intros E. unfold load_s. now rewrite E. Qed.
Lemma load_p_run h p v : get h p = Some (VP v) -> load_p p h = (h, Ok v).
Proof. intros E. unfold load_p. now rewrite E. Qed.
Lemma load_q_run h p v : get h p = Some (VQ v) -> load_q p h = (h, Ok v).
Proof. intros E. unfold load_q. now rewrite E. Qed.
Lemma store_s_ok h p w v : get h p = Some (VS w) -> refines [p] h h (store_s p v) (iss p) (Ok v).
Proof. intros E. unfold refines, store_s. rewrite E. simpl. split; [apply upd_ext|]. split; [reflexivity|]. eapply upd_same; eauto. Qed.
Lemma store_p_ok h p w v : get h p = Some (VP w) -> refines [p] h h (store_p p v) (isp p) (Ok v).
Proof. intros E. unfold refines, store_p. rewrite E. simpl. split; [apply upd_ext|]. split; [reflexivity|]. eapply upd_same; eauto. Qed.

Ltac op2 := intros; unfold refines, hbind;
  repeat (first [erewrite load_s_run by eassumption | erewrite load_p_run by eassumption]).
Lemma s_add_ok h recv l r w a b : get h recv = Some (VS w) -> get h l = Some (VS a) -> get h r = Some (VS b) ->
  refines [recv] h h (s_add recv l r) (iss recv) (Ok (fadd a b)).
Proof. intros. unfold s_add. op2. now apply (store_s_ok h recv w). Qed.
Lemma s_sub_ok h recv l r w a b : get h recv = Some (VS w) -> get h l = Some (VS a) -> get h r = Some (VS b) ->
  refines [recv] h h (s_sub recv l r) (iss recv) (Ok (fsub a b)).
Proof. intros. unfold s_sub. op2. now apply (store_s_ok h recv w). Qed.
Lemma s_mul_ok h recv l r w a b : get h recv = Some (VS w) -> get h l = Some (VS a) -> get h r = Some (VS b) ->
  refines [recv] h h (s_mul recv l r) (iss recv) (Ok (fmul a b)).
Proof. intros. unfold s_mul. op2. now apply (store_s_ok h recv w). Qed.
Lemma s_invert_ok h recv l w a : get h recv = Some (VS w) -> get h l = Some (VS a) ->
  refines [recv] h h (s_invert recv l) (iss recv) (Ok (finv a)).
Proof. intros. unfold s_invert. op2. now apply (store_s_ok h recv w). Qed.
Lemma s_negate_ok h recv l w a : get h recv = Some (VS w) -> get h l = Some (VS a) ->
  refines [recv] h h (s_negate recv l) (iss recv) (Ok (fneg a)).
Proof. intros. unfold s_negate. op2. now apply (store_s_ok h recv w). Qed.
Lemma s_assign_ok h recv l w a : get h recv = Some (VS w) -> get h l = Some (VS a) ->
  refines [recv] h h (s_assign recv l) (iss recv) (Ok a).
Proof. intros. unfold s_assign. op2. now apply (store_s_ok h recv w). Qed.
Lemma s_equal_ok h l r a b : get h l = Some (VS a) -> get h r = Some (VS b) ->
  refines [] h h (s_equal l r) (fun _ x y => x = y) (Ok (feqb a b)).
Proof. intros. unfold s_equal. op2. simpl. split; [apply ext_refl|reflexivity]. Qed.
Lemma s_is_zero_ok h l a : get h l = Some (VS a) -> refines [] h h (s_is_zero l) (fun _ x y => x = y) (Ok (feqb a fzero)).
Proof. intros. unfold s_is_zero. op2. simpl. split; [apply ext_refl|reflexivity]. Qed.
Lemma s_is_high_ok h l a : get h l = Some (VS a) -> refines [] h h (s_is_high l) (fun _ x y => x = y) (Ok (is_high a)).
Proof. intros. unfold s_is_high. op2. simpl. split; [apply ext_refl|reflexivity]. Qed.
Lemma p_add_ok h recv l r w a b : get h recv = Some (VP w) -> get h l = Some (VP a) -> get h r = Some (VP b) ->
  refines [recv] h h (p_add recv l r) (isp recv) (Ok (gadd a b)).
Proof. intros. unfold p_add. op2. now apply (store_p_ok h recv w). Qed.
Lemma p_sub_ok h recv l r w a b : get h recv = Some (VP w) -> get h l = Some (VP a) -> get h r = Some (VP b) ->
  refines [recv] h h (p_sub recv l r) (isp recv) (Ok (gsub a b)).
Proof. intros. unfold p_sub. op2. now apply (store_p_ok h recv w). Qed.
Lemma p_double_ok h recv l w a : get h recv = Some (VP w) -> get h l = Some (VP a) ->
  refines [recv] h h (p_double recv l) (isp recv) (Ok (gdbl a)).
Proof. intros. unfold p_double. op2. now apply (store_p_ok h recv w). Qed.
Lemma p_scalar_mul_ok h recv l s w a x : get h recv = Some (VP w) -> get h l = Some (VP a) -> get h s = Some (VS x) ->
  refines [recv] h h (p_scalar_mul recv l s) (isp recv) (Ok (smul x a)).
Proof. intros. unfold p_scalar_mul. op2. now apply (store_p_ok h recv w). Qed.
Lemma p_equal_ok h l r a b : get h l = Some (VP a) -> get h r = Some (VP b) ->
  refines [] h h (p_equal l r) (fun _ x y => x = y) (Ok (geqb a b)).
Proof. intros. unfold p_equal. op2. simpl. split; [apply ext_refl|reflexivity]. Qed.
Lemma p_clone_ok h l a : get h l = Some (VP a) -> refines [] h h (p_clone l) (newp h) (Ok a).
Proof. intros. unfold p_clone. op2. apply p_new_ok. Qed.
End HeapProofs.

(** Discharge "written cells are the receiver or new". *)
Ltac wr := let W := fresh "W" in intros ? W; simpl in W; repeat (destruct W as [W|W]; [subst|]); try contradiction;
  first [now left; left | now left; right; left | right; lia | auto].
Ltac nin := simpl; intuition lia.

Section HeapProofs2.
Context {X : Oracles} {GO : Grp}.
Lemma s_clone_ok h l a : get h l = Some (VS a) -> refines [] h h (s_clone l) (news h) (Ok a).
Proof.
  intros E. unfold s_clone. eapply ref_step; [apply s_new_ok|apply ext_refl|wr|]. intros h1 z E1 E2 [Z L].
  eapply ref_mono; [|eapply ref_from; [eapply s_assign_ok; [exact Z|eapply ext_get; [exact E1|exact E]]|exact E2|wr]].
  intros h' x b [-> Q]. split; auto.
Qed.

(** several new cells, pairwise different *)
Definition newss (h : heap) : heap -> list ptr -> list Fq -> Prop :=
  fun h' ps vs => svals h' ps vs /\ Forall (fun p => (List.length h <= p)%nat) ps /\ NoDup ps.

Lemma hmap_ok {A} (f : A -> M ptr) (g : A -> res Fq) (l : list A) h0 :
  (forall h a, ext h0 h -> In a l -> refines [] h h (f a) (news h) (g a)) ->
  refines [] h0 h0 (hmap f l) (newss h0) (mapM g l).
Proof.
  revert h0. induction l as [|a l IH]; intros h0 F; simpl.
  - apply ref_ret; [apply ext_refl|]. split; [constructor|]. split; constructor.
  - eapply ref_bind; [apply F; [apply ext_refl|now left]|apply ext_refl|wr|]. intros h1 p v E1 _ [P L].
    eapply ref_bind; [apply IH; intros h b E I; apply F; [eapply ext_trans; eauto|now right]|exact E1|wr|].
    intros h2 ps vs E2 E3 (S & Fr & N). apply ref_ret; [exact E3|].
    assert (Lt := get_lt _ _ _ P). split; [constructor; [exact (ext_get h1 h2 p _ E2 P)|exact S]|]. split.
    + constructor; [exact L|]. eapply Forall_impl; [|exact Fr]. intros q Hq. destruct E1. simpl in *. lia.
    + constructor; [|exact N]. intros I. rewrite Forall_forall in Fr. specialize (Fr _ I). simpl in Fr. lia.
Qed.
Lemma hmap_new {A} (f : A -> M ptr) (g : A -> Fq) (l : list A) h0 :
  (forall h a, ext h0 h -> In a l -> refines [] h h (f a) (news h) (Ok (g a))) ->
  refines [] h0 h0 (hmap f l) (newss h0) (Ok (map g l)).
Proof. intros F. rewrite <- (mapM_total (fun a => Ok (g a)) g) by reflexivity. now apply hmap_ok. Qed.
Lemma hmap_pure {A B} (f : A -> M B) (g : A -> B) (l : list A) h :
  (forall a, In a l -> f a h = (h, Ok (g a))) -> hmap f l h = (h, Ok (map g l)).
Proof.
  induction l as [|a l IH]; intros F; simpl; [reflexivity|]. unfold hbind. rewrite F by now left. rewrite IH; [reflexivity|].
  intros b I. apply F. now right.
Qed.
Lemma hbind_run {A B} (m : M A) (k : A -> M B) h h' a : m h = (h', Ok a) -> hbind m k h = k a h'.
Proof. intros E. unfold hbind. now rewrite E. Qed.
Lemma ref_run {A A' B} ws h0 h h' (m : M A) (k : A -> M A') a R (r : res B) :
  m h = (h', Ok a) -> refines ws h0 h' (k a) R r -> refines ws h0 h (hbind m k) R r.
Proof. intros E H. unfold refines. now rewrite (hbind_run _ _ _ _ _ E). Qed.

Lemma ref_assoc {A A' A'' B} ws h0 h (m : M A) (k : A -> M A') (k' : A' -> M A'') R (r : res B) :
  refines ws h0 h (hbind (hbind m k) k') R r -> refines ws h0 h (hbind m (fun a => hbind (k a) k')) R r.
Proof.
  unfold refines. assert (E : hbind (hbind m k) k' h = hbind m (fun a => hbind (k a) k') h).
  { unfold hbind. destruct (m h) as [h' [a| | |]]; reflexivity. }
  now rewrite E.
Qed.

(** ** poly/poly.go *)
Lemma q_new_ok h cs : refines [] h h (q_new cs) (fun h' p _ => get h' p = Some (VQ cs) /\ p = List.length h) (Ok tt).
Proof. split; [apply app_ext|]. split; [apply app_new|reflexivity]. Qed.
Lemma svals_none h cs vs i : svals h cs vs -> nth_error cs i = None -> nth_error vs i = None.
Proof. intros S. apply svals_length in S. rewrite !nth_error_None. lia. Qed.
Lemma q_coeff_ok h p vs i : qval h p vs -> refines [] h h (q_coeff p i) (news h) (Ok (coeff vs i)).
Proof.
  intros (cs & G1 & S). unfold q_coeff. eapply ref_run; [apply load_q_run; exact G1|]. unfold coeff.
  destruct (nth_error cs i) as [c|] eqn:E.
  - destruct (svals_nth _ _ _ _ _ S E) as (v & E1 & E2). rewrite (nth_error_nth _ _ _ E1). now apply s_clone_ok.
  - rewrite nth_overflow; [apply s_new_ok|]. apply nth_error_None. eapply svals_none; eauto.
Qed.
Lemma is_zero_run h p v : get h p = Some (VS v) -> s_is_zero p h = (h, Ok (feqb v fzero)).
Proof. intros E. unfold s_is_zero. now rewrite (hbind_run _ _ _ _ _ (load_s_run _ _ _ E)). Qed.
Lemma is_zeros_run h cs vs : svals h cs vs -> hmap s_is_zero cs h = (h, Ok (map (fun v => feqb v fzero) vs)).
Proof.
  induction 1 as [|p0 v cs vs E S IH]; simpl; [reflexivity|].
  rewrite (hbind_run _ _ _ _ _ (is_zero_run _ _ _ E)), (hbind_run _ _ _ _ _ IH). reflexivity.
Qed.
Lemma q_non_zero_run h p vs : qval h p vs -> q_non_zero p h = (h, Ok (non_zero_coefficients vs)).
Proof.
  intros (cs & G1 & S). unfold q_non_zero. rewrite (hbind_run _ _ _ _ _ (load_q_run _ _ _ G1)).
  rewrite (hbind_run _ _ _ _ _ (is_zeros_run _ _ _ S)). unfold hret. do 2 f_equal. unfold non_zero_coefficients.
  rewrite (svals_length _ _ _ S). f_equal. clear. induction vs as [|v vs IH]; simpl; [reflexivity|].
  destruct (feqb v fzero); simpl; auto.
Qed.

(** the receiver [p] ends as a polynomial with new coefficient cells *)
Definition isq (h : heap) (p : ptr) : heap -> ptr -> list Fq -> Prop :=
  fun h' a vs => a = p /\ exists cs, get h' p = Some (VQ cs) /\ newss h h' cs vs.
Lemma store_q_ok h0 h p old cs vs : ext h0 h -> get h p = Some (VQ old) -> newss h0 h cs vs ->
  refines [p] h0 h (store_q p cs) (isq h0 p) (Ok vs).
Proof.
  intros E G1 (S & F & N). unfold refines, store_q. rewrite G1. simpl. split.
  - eapply ext_trans; [eapply ext_weak; [|exact E]; simpl; tauto|apply upd_ext].
  - split; [reflexivity|]. exists cs. split; [eapply upd_same; eauto|]. split; [|now split].
    eapply svals_but; [apply upd_ext| |exact S]. intros q [<-|[]] I.
    clear - S I G1. induction S as [|? ? ? ? E0 S IH]; simpl in I; [exact I|]. destruct I as [I|I]; [subst; congruence|auto].
Qed.
Lemma q_add_ok h recv l r old lv rv : get h recv = Some (VQ old) -> qval h l lv -> qval h r rv ->
  refines [recv] h h (q_add recv l r) (isq h recv) (Ok (poly_add lv rv)).
Proof.
  intros G1 L R. unfold q_add. destruct L as (lc & GL & SL). destruct R as (rc & GR & SR).
  eapply ref_run; [apply load_q_run; exact GL|]. eapply ref_run; [apply load_q_run; exact GR|].
  rewrite (svals_length _ _ _ SL), (svals_length _ _ _ SR). unfold poly_add.
  eapply ref_step; [apply hmap_new with (g := fun i => fadd (coeff lv i) (coeff rv i))|apply ext_refl|wr|].
  - intros h1 i E _. eapply ref_step; [apply q_coeff_ok; eapply qval_ext; [exact E|]; exists lc; split; eassumption|apply ext_refl|wr|].
    intros h2 x E1 _ [Gx Lx]. eapply ref_step; [apply q_coeff_ok; eapply qval_ext; [exact E1|]; eapply qval_ext; [exact E|]; exists rc; split; eassumption|exact E1|wr|].
    intros h3 y E2 E3 [Gy Ly]. eapply ref_mono; [|eapply ref_from; [eapply s_add_ok; [exact (ext_get _ _ _ _ E2 Gx)|exact (ext_get _ _ _ _ E2 Gx)|exact Gy]|exact E3|wr]].
    intros h' z b [-> Q]. split; auto.
  - intros h' cs E1 E2 N. eapply ref_mono; [|eapply store_q_ok; [exact E1|exact (ext_get _ _ _ _ E1 G1)|exact N]]. auto.
Qed.

Lemma add_at_length l k v : List.length (add_at l k v) = List.length l.
Proof. revert k; induction l; destruct k; simpl; auto. Qed.
Lemma svals_add h h' cs vs k c w v : svals h cs vs -> NoDup cs -> nth_error cs k = Some c -> nth_error vs k = Some w ->
  ext_but [c] h h' -> get h' c = Some (VS (fadd w v)) -> svals h' cs (add_at vs k v).
Proof.
  intros S. revert k. induction S as [|p u cs vs E S IH]; intros k N C W Ex Gc; destruct k; simpl in *; try discriminate.
  - inversion C; inversion W; subst. constructor; [exact Gc|]. eapply svals_but; [exact Ex| |exact S].
    intros q [<-|[]] I. inversion N; auto.
  - inversion N; subst. constructor; [|eapply IH; eauto]. eapply but_get; [exact Ex| |exact E].
    intros [->|[]]. apply nth_error_In in C. auto.
Qed.
Lemma q_mul_row_ok h0 cs ca a : get h0 ca = Some (VS a) -> forall rc rv, svals h0 rc rv -> forall h k vs, ext h0 h ->
  newss h0 h cs vs -> (k + List.length rc <= List.length cs)%nat ->
  refines [] h0 h (q_mul_row cs k ca rc) (fun h' _ vs' => newss h0 h' cs vs') (Ok (mul_row vs k a rv)).
Proof.
  intros Ga rc rv Sr. induction Sr as [|cb b rc rv Gb Sr IH]; intros h k vs E N L; simpl.
  - apply ref_ret; auto.
  - simpl in L. eapply ref_step; [apply s_new_ok|exact E|wr|]. intros h1 z E1 E2 [Z1 Z2].
    assert (Ez : (List.length h0 <= z)%nat) by (destruct E; simpl in *; lia).
    eapply ref_step; [eapply s_mul_ok; [exact Z1|exact (ext_get _ _ _ _ E2 Ga)|exact (ext_get _ _ _ _ E2 Gb)]|exact E2|wr|].
    intros h2 z' E3 E4 [-> Z3]. destruct N as (S & F & D).
    destruct (nth_error cs k) as [c|] eqn:C; [|apply nth_error_None in C; lia].
    destruct (svals_nth _ _ _ _ _ S C) as (w & W & Gc).
    assert (Hz : z <> c) by (intros ->; apply get_lt in Gc; lia).
    assert (S2 : svals h2 cs vs).
    { eapply svals_but; [exact E3| |eapply svals_ext; [exact E1|exact S]]. intros q [<-|[]] I.
      apply (svals_lt) in S. rewrite Forall_forall in S. specialize (S _ I). simpl in S. lia. }
    assert (Gc2 : get h2 c = Some (VS w)).
    { destruct (svals_nth _ _ _ _ _ S2 C) as (w' & W' & G'). congruence. }
    assert (Fc : (List.length h0 <= c)%nat).
    { rewrite Forall_forall in F. apply F. eapply nth_error_In; eauto. }
    eapply ref_step; [eapply s_add_ok; [exact Gc2|exact Gc2|exact Z3]|exact E4|wr|].
    intros h3 c' E5 E6 [-> G3]. apply IH; [exact E6| |lia]. split; [|split; assumption].
    eapply svals_add; eauto.
Qed.
Lemma mul_row_length vs k a rv : List.length (mul_row vs k a rv) = List.length vs.
Proof. revert vs k. induction rv; intros; simpl; [reflexivity|]. rewrite IHrv. apply add_at_length. Qed.
Lemma q_mul_rows_ok h0 cs rc rv : svals h0 rc rv -> forall lc lv, svals h0 lc lv -> forall h k vs, ext h0 h ->
  newss h0 h cs vs -> (k + List.length lc + List.length rc <= S (List.length cs))%nat ->
  refines [] h0 h (q_mul_rows cs k lc rc) (fun h' _ vs' => newss h0 h' cs vs') (Ok (mul_rows vs k lv rv)).
Proof.
  intros Sr lc lv Sl. induction Sl as [|ca a lc lv Ga Sl IH]; intros h k vs E N L; simpl.
  - apply ref_ret; auto.
  - simpl in L. destruct rc as [|cb rc].
    + inversion Sr; subst. simpl. eapply ref_run; [reflexivity|]. apply IH; auto. lia.
    + eapply ref_seq_ok; [apply (q_mul_row_ok h0 cs ca a Ga (cb :: rc) rv Sr h k vs E N); simpl in *; lia|].
      intros h1 u E1 N1. apply IH; [exact E1|exact N1|simpl in *; lia].
Qed.
Lemma map_const {A B} (l : list A) (b : B) : map (fun _ => b) l = repeat b (List.length l).
Proof. induction l; simpl; congruence. Qed.
Lemma q_mul_ok h recv l r old lv rv : get h recv = Some (VQ old) -> qval h l lv -> qval h r rv ->
  refines [recv] h h (q_mul recv l r) (isq h recv) (Ok (poly_mul lv rv)).
Proof.
  intros G1 (lc & GL & SL) (rc & GR & SR). unfold q_mul.
  eapply ref_run; [apply load_q_run; exact GL|]. eapply ref_run; [apply load_q_run; exact GR|].
  eapply ref_step; [apply hmap_new with (g := fun _ => fzero); intros; apply s_new_ok|apply ext_refl|wr|].
  intros h1 cs E1 _ N1. rewrite map_const, repeat_length in N1.
  assert (Lc : List.length cs = (Nat.max (List.length lc + List.length rc) 1 - 1)%nat).
  { destruct N1 as (S & _). apply svals_length in S. rewrite repeat_length in S. exact S. }
  eapply ref_mono with (R := isq h recv); [auto|].
  assert (Q : refines [] h h1 (q_mul_rows cs 0 lc rc) (fun h' _ vs' => newss h h' cs vs') (Ok (poly_mul lv rv))).
  { unfold poly_mul. rewrite <- (svals_length _ _ _ SL), <- (svals_length _ _ _ SR). apply q_mul_rows_ok; auto. lia. }
  destruct Q as [E2 Q]. unfold refines, hbind. destruct (q_mul_rows cs 0 lc rc h1) as [h2 x]. simpl in E2, Q.
  destruct x; simpl in Q; try contradiction. eapply store_q_ok; [exact E2|exact (ext_get _ _ _ _ E2 G1)|exact Q].
Qed.

Lemma mapM_panic {A B} (f : A -> res B) g l1 a l2 : (forall x, In x l1 -> f x = Ok (g x)) -> f a = Panic -> mapM f (l1 ++ a :: l2) = Panic.
Proof.
  induction l1 as [|b l1 IH]; intros H E; simpl; [now rewrite E|]. rewrite H by now left. simpl. rewrite IH; auto. intros x I. apply H. now right.
Qed.
Lemma q_mul_scalar_ok h recv l s pv lv v : qval h recv pv -> qval h l lv -> get h s = Some (VS v) ->
  refines [recv] h h (q_mul_scalar recv l s) (isq h recv) (poly_mul_scalar pv lv v).
Proof.
  intros (pc & GP & SP) (lc & GL & SL) Gs. unfold q_mul_scalar.
  eapply ref_run; [apply load_q_run; exact GL|]. eapply ref_run; [apply load_q_run; exact GP|].
  set (g := fun i => match nth_error pv i with Some w => Ok (fmul w v) | None => Panic end).
  assert (Q : refines [] h h (hmap (fun i => match nth_error pc i with
                            | Some c => hbind (s_new fzero) (fun z => s_mul z c s) | None => hpanic end) (seq 0 (List.length lc))) (newss h) (mapM g (seq 0 (List.length lc)))).
  { apply hmap_ok. intros h1 i E _. unfold g. destruct (nth_error pc i) as [c|] eqn:Ec.
    - destruct (svals_nth _ _ _ _ _ SP Ec) as (w & Ew & Gw). rewrite Ew.
      eapply ref_step; [apply s_new_ok|apply ext_refl|wr|]. intros h2 z E1 E2 [Z1 Z2].
      eapply ref_mono; [|eapply ref_from; [eapply s_mul_ok; [exact Z1| |]|exact E2|wr]].
      + intros h' y b [-> Qy]. split; auto.
      + exact (ext_get _ _ _ _ E1 (ext_get _ _ _ _ E Gw)).
      + exact (ext_get _ _ _ _ E1 (ext_get _ _ _ _ E Gs)).
    - rewrite (svals_none _ _ _ _ SP Ec). apply ref_panic, ext_refl. }
  assert (Em : poly_mul_scalar pv lv v = mapM g (seq 0 (List.length lc))).
  { unfold poly_mul_scalar. rewrite (svals_length _ _ _ SL). destruct (Nat.ltb_spec (List.length pv) (List.length lv)) as [Lt|Ge].
    - replace (List.length lv) with (List.length pv + S (List.length lv - List.length pv - 1))%nat by lia.
      rewrite seq_app. symmetry. apply (mapM_panic g (fun i => fmul (nth i pv fzero) v)).
      + intros i I. apply in_seq in I. unfold g. rewrite (nth_error_nth' pv fzero) by lia. reflexivity.
      + unfold g. replace (nth_error pv (0 + List.length pv)) with (@None Fq); [reflexivity|]. symmetry. apply nth_error_None. simpl. lia.
    - symmetry. apply mapM_total. intros i I. apply in_seq in I. unfold g, coeff. rewrite (nth_error_nth' pv fzero) by lia. reflexivity. }
  rewrite Em. destruct Q as [E1 Q]. unfold refines, hbind. destruct (hmap _ _ h) as [h1 x]. simpl in E1, Q.
  destruct (mapM g _) as [vs| | |], x as [cs| | |]; simpl in Q; try contradiction;
    try (split; [eapply ext_weak; [|exact E1]; simpl; tauto|exact I]).
  eapply store_q_ok; [exact E1|exact (ext_get _ _ _ _ E1 GP)|exact Q].
Qed.

Lemma q_horner_ok h0 x xv : get h0 x = Some (VS xv) -> forall cs vs, svals h0 cs vs -> forall h ans av, ext h0 h ->
  get h ans = Some (VS av) -> (List.length h0 <= ans)%nat ->
  refines [] h0 h (q_horner x ans cs) (news h0) (Ok (fold_left (fun ans c => fadd (fmul ans xv) c) vs av)).
Proof.
  intros Gx cs vs S. induction S as [|c v cs vs Gc S IH]; intros h ans av E Ga L; simpl.
  - apply ref_ret; [exact E|]. split; auto.
  - eapply ref_step; [apply s_clone_ok; exact (ext_get _ _ _ _ E Gc)|exact E|wr|]. intros h1 co E1 E2 [C1 C2].
    assert (Ga1 := ext_get _ _ _ _ E1 Ga). assert (La := get_lt _ _ _ Ga).
    eapply ref_step; [eapply s_mul_ok; [exact Ga1|exact Ga1|exact (ext_get _ _ _ _ E2 Gx)]|exact E2|wr|].
    intros h2 a2 E3 E4 [-> G2].
    eapply ref_step; [eapply s_add_ok; [exact G2|exact G2|eapply but_get; [exact E3|nin|exact C1]]|exact E4|wr|].
    intros h3 a3 E5 E6 [-> G3]. apply IH; auto.
Qed.
Lemma q_evaluate_at_ok h p x vs xv : qval h p vs -> get h x = Some (VS xv) ->
  refines [] h h (q_evaluate_at p x) (news h) (Ok (evaluate_at vs xv)).
Proof.
  intros Q Gx. destruct (Q) as (cs & Gp & S). unfold q_evaluate_at, evaluate_at. eapply ref_run; [apply load_q_run; exact Gp|].
  assert (SR : svals h (rev cs) (rev vs)) by (clear - S; induction S; simpl; [constructor|apply Forall2_app; auto]).
  destruct (rev cs) as [|c l] eqn:Ec; inversion SR as [|? v ? vl Gc Sl E1 E2]; subst; [apply s_new_ok|].
  eapply ref_step; [apply q_coeff_ok; exact Q|apply ext_refl|wr|]. intros h1 a E3 _ [Ga La].
  assert (Hc : coeff vs (List.length cs - 1) = v).
  { rewrite (svals_length _ _ _ S). unfold coeff. assert (Ev : vs = rev vl ++ [v]) by (rewrite <- (rev_involutive vs), <- E2; reflexivity).
    rewrite Ev. rewrite app_length. simpl. rewrite app_nth2 by lia. replace (_ - _)%nat with 0%nat by lia. reflexivity. }
  rewrite Hc in Ga. apply q_horner_ok; auto.
Qed.
Lemma q_equal_loop_ok p r pv rv : forall is h, qval h p pv -> qval h r rv ->
  refines [] h h (q_equal_loop p r is) (fun _ a b => a = b) (Ok (forallb (fun i => feqb (coeff pv i) (coeff rv i)) is)).
Proof.
  induction is as [|i is IH]; intros h P R; simpl; [apply ref_ret; [apply ext_refl|reflexivity]|].
  eapply ref_step; [apply q_coeff_ok; exact P|apply ext_refl|wr|]. intros h1 x E1 _ [X1 X2].
  eapply ref_step; [apply q_coeff_ok; eapply qval_ext; [exact E1|exact R]|exact E1|wr|]. intros h2 y E2 E3 [Y1 Y2].
  eapply ref_step; [apply s_equal_ok; [exact (ext_get _ _ _ _ E2 X1)|exact Y1]|exact E3|wr|]. intros h3 b E4 E5 ->.
  destruct (feqb _ _); simpl; [|apply ref_ret; auto].
  eapply ref_from; [apply IH; [eapply qval_ext; [exact E5|exact P]|eapply qval_ext; [exact E5|exact R]]|exact E5|wr].
Qed.
Lemma q_equal_ok h p r pv rv : qval h p pv -> qval h r rv ->
  refines [] h h (q_equal p r) (fun _ a b => a = b) (Ok (poly_equal pv rv)).
Proof.
  intros P R. unfold q_equal, poly_equal. destruct P as (pc & GP & SP). destruct R as (rc & GR & SR).
  eapply ref_run; [apply load_q_run; exact GP|]. eapply ref_run; [apply load_q_run; exact GR|].
  rewrite (svals_length _ _ _ SP), (svals_length _ _ _ SR). apply q_equal_loop_ok; [exists pc|exists rc]; auto.
Qed.

(** a polynomial none of whose cells existed in [h0] *)
Definition newq (h0 : heap) : heap -> ptr -> list Fq -> Prop := fun h' p vs =>
  (List.length h0 <= p)%nat /\ exists cs, get h' p = Some (VQ cs) /\ svals h' cs vs /\ Forall (fun c => (List.length h0 <= c)%nat) cs.
Lemma newq_qval h0 h p vs : newq h0 h p vs -> qval h p vs.
Proof. intros (_ & cs & G1 & S & _). exists cs; auto. Qed.
Lemma newq_get h0 h p vs : newq h0 h p vs -> exists cs, get h p = Some (VQ cs).
Proof. intros (_ & cs & G1 & _). eauto. Qed.
Lemma newq_ext h0 h h' p vs : ext h h' -> newq h0 h p vs -> newq h0 h' p vs.
Proof. intros E (L & cs & G1 & S & F). split; [exact L|]. exists cs. split; [exact (ext_get _ _ _ _ E G1)|]. split; [eapply svals_ext; eauto|exact F]. Qed.
(** writing another polynomial cell *)
Lemma newq_but_q h0 h h' p r old vs : ext_but [r] h h' -> get h r = Some (VQ old) -> p <> r -> newq h0 h p vs -> newq h0 h' p vs.
Proof.
  intros E Gr N (L & cs & G1 & S & F). split; [exact L|]. exists cs. split; [eapply but_get; [exact E|nin|exact G1]|]. split; [|exact F].
  eapply svals_but; [exact E| |exact S]. intros q [<-|[]] I. clear - S I Gr.
  induction S as [|? ? ? ? E0 S IH]; simpl in I; [exact I|]. destruct I as [I|I]; [subst; congruence|auto].
Qed.
(** writing a scalar cell that does not occur among the coefficients *)
Lemma newq_but_s h0 h h' p r vs : ext_but [r] h h' -> (List.length h0 <= r)%nat -> (forall cs, get h p = Some (VQ cs) -> ~ In r cs) -> p <> r ->
  newq h0 h p vs -> newq h0 h' p vs.
Proof.
  intros E Gr N Np (L & cs & G1 & S & F). split; [exact L|]. exists cs. split; [eapply but_get; [exact E|nin|exact G1]|]. split; [|exact F].
  eapply svals_but; [exact E| |exact S]. intros q [<-|[]] I. exact (N _ G1 I).
Qed.
Lemma isq_newq h0 h h' p a vs : ext h0 h -> (List.length h0 <= p)%nat -> isq h p h' a vs -> newq h0 h' p vs.
Proof.
  intros [_ L] Lp (-> & cs & G1 & S & F & _). split; [exact Lp|]. exists cs. split; [exact G1|]. split; [exact S|].
  eapply Forall_impl; [|exact F]. simpl. intros; lia.
Qed.
Lemma newq_old h0 h p vs r : newq h0 h p vs -> (List.length h <= r)%nat -> (forall cs, get h p = Some (VQ cs) -> ~ In r cs) /\ p <> r.
Proof.
  intros (L & cs & G1 & S & F) Lr. split.
  - intros cs' G2 I. assert (cs' = cs) by congruence. subst. apply svals_lt in S. rewrite Forall_forall in S. specialize (S _ I). simpl in S. lia.
  - intros ->. apply get_lt in G1. lia.
Qed.
(** a scalar written in [h1] where the polynomial was complete in an earlier memory *)
Lemma newq_keep h0 ha h h' p r vs : newq h0 ha p vs -> ext ha h -> ext_but [r] h h' -> (List.length ha <= r)%nat -> newq h0 h' p vs.
Proof.
  intros Q Ea E Lr. destruct Q as (L & cs & G1 & S & F). split; [exact L|]. exists cs.
  assert (Lp := get_lt _ _ _ G1). split; [eapply but_get; [exact E|nin|exact (ext_get _ _ _ _ Ea G1)]|]. split; [|exact F].
  eapply svals_but; [exact E| |eapply svals_ext; [exact Ea|exact S]]. intros q [<-|[]] I.
  apply svals_lt in S. rewrite Forall_forall in S. specialize (S _ I). simpl in S. lia.
Qed.
Lemma ext_but_ext ha h h' r : ext ha h -> ext_but [r] h h' -> (List.length ha <= r)%nat -> ext ha h'.
Proof. intros E1 E2 L. eapply ext_fresh; [exact E1|exact E2|]. constructor; [exact L|constructor]. Qed.

Lemma poly_mul_scalar_self base d : poly_mul_scalar base base d = Ok (map (fun i => fmul (coeff base i) d) (seq 0 (List.length base))).
Proof. unfold poly_mul_scalar. rewrite Nat.ltb_irrefl. reflexivity. Qed.

Definition pair_val (h : heap) (s : ptr * ptr) (v : Fq * Fq) : Prop := get h (fst s) = Some (VS (fst v)) /\ get h (snd s) = Some (VS (snd v)).
Lemma q_interpolate_loop_ok h0 : forall ss vs, Forall2 (pair_val h0) ss vs -> forall h one po base pv bv, ext h0 h ->
  get h one = Some (VS fone) -> newq h0 h po pv -> newq h0 h base bv -> po <> base -> (List.length h0 <= one)%nat ->
  refines [] h0 h (q_interpolate_loop ss one po base) (newq h0) (interpolate_loop vs pv bv).
Proof.
  intros ss vs S. induction S as [|[sx sy] [xv yv] ss vs [Gx Gy] S IH]; intros h one po base pv bv E G1 Qp Qb Np Lo; simpl.
  - apply ref_ret; auto.
  - simpl in Gx, Gy.
    eapply ref_step; [apply s_clone_ok; exact (ext_get _ _ _ _ E Gx)|exact E|wr|]. intros h1 x E1 F1 [X1 X2].
    eapply ref_step; [apply s_clone_ok; exact (ext_get _ _ _ _ F1 Gy)|exact F1|wr|]. intros h2 y E2 F2 [Y1 Y2].
    eapply ref_step; [apply s_new_ok|exact F2|wr|]. intros h3 z E3 F3 [Z1 Z2].
    assert (E13 : ext h1 h3) by (eapply ext_trans; eauto). assert (E03 : ext h h3) by (eapply ext_trans; eauto).
    eapply ref_step; [apply q_evaluate_at_ok; [apply (newq_qval h0); eapply newq_ext; [exact E03|exact Qp]|exact (ext_get _ _ _ _ E13 X1)]|exact F3|wr|].
    intros h4 e E4 F4 [T1 T2].
    assert (Lx := get_lt _ _ _ X1). assert (Ly := get_lt _ _ _ Y1). assert (Lz := get_lt _ _ _ Z1).
    assert (L0 : (List.length h0 <= List.length h)%nat) by (destruct E; assumption).
    assert (L1 : (List.length h <= List.length h1)%nat) by (destruct E1; assumption).
    assert (L2 : (List.length h1 <= List.length h2)%nat) by (destruct E2; assumption).
    assert (L3 : (List.length h2 <= List.length h3)%nat) by (destruct E3; assumption).
    eapply ref_step; [eapply s_sub_ok; [exact (ext_get _ _ _ _ E4 Z1)|exact (ext_get _ _ _ _ (ext_trans _ _ _ _ E3 E4) Y1)|exact T1]|exact F4|wr|].
    intros h5 dz E5 F5 [-> D1].
    assert (E04 : ext h h4) by (eapply ext_trans; eauto).
    assert (E05 : ext h h5) by (eapply ext_but_ext; [exact E04|exact E5|lia]).
    assert (X5 : get h5 x = Some (VS xv)).
    { eapply but_get; [exact E5|nin|]. exact (ext_get _ _ _ _ (ext_trans _ _ _ _ E13 E4) X1). }
    eapply ref_step; [apply q_evaluate_at_ok; [apply (newq_qval h0); eapply newq_ext; [exact E05|exact Qb]|exact X5]|exact F5|wr|].
    intros h6 inv E6 F6 [I1 I2].
    assert (L4 : (List.length h3 <= List.length h4)%nat) by (destruct E4; assumption).
    assert (L5 : (List.length h4 <= List.length h5)%nat) by (destruct E5; assumption).
    assert (L6 : (List.length h5 <= List.length h6)%nat) by (destruct E6; assumption).
    eapply ref_step; [eapply s_invert_ok; [exact I1|exact I1]|exact F6|wr|]. intros h7 inv' E7 F7 [-> I3].
    assert (E06 : ext h h6) by (eapply ext_trans; eauto).
    assert (E07 : ext h h7) by (eapply ext_but_ext; [exact E06|exact E7|lia]).
    eapply ref_step; [apply s_is_zero_ok; exact I3|exact F7|wr|]. intros h8 b E8 F8 ->.
    assert (E08 : ext h h8) by (eapply ext_trans; eauto).
    destruct (feqb (finv (evaluate_at bv xv)) fzero); [apply ref_err; exact F8|].
    assert (D8 : get h8 z = Some (VS (fsub yv (evaluate_at pv xv)))).
    { eapply (ext_get h7); [exact E8|]. eapply but_get; [exact E7|nin|]. exact (ext_get _ _ _ _ E6 D1). }
    assert (X8 : get h8 x = Some (VS xv)).
    { eapply (ext_get h7); [exact E8|]. eapply but_get; [exact E7|nin|]. exact (ext_get _ _ _ _ E6 X5). }
    assert (L7 : (List.length h6 <= List.length h7)%nat) by (destruct E7; assumption).
    assert (L8 : (List.length h7 <= List.length h8)%nat) by (destruct E8; assumption).
    eapply ref_step; [eapply s_mul_ok; [exact D8|exact D8|exact (ext_get _ _ _ _ E8 I3)]|exact F8|wr|]. intros h9 dz' E9 F9 [-> D9].
    assert (E09 : ext h h9) by (eapply ext_but_ext; [exact E08|exact E9|lia]).
    assert (X9 : get h9 x = Some (VS xv)) by (eapply but_get; [exact E9|nin|exact X8]).
    assert (Qb9 := newq_ext _ _ _ _ _ E09 Qb). assert (Qp9 := newq_ext _ _ _ _ _ E09 Qp).
    destruct (newq_get _ _ _ _ Qb9) as (bc & Gb9). assert (Lb : (List.length h0 <= base)%nat) by (destruct Qb; assumption).
    assert (Lpo : (List.length h0 <= po)%nat) by (destruct Qp; assumption).
    rewrite poly_mul_scalar_self.
    eapply ref_step; [rewrite <- (poly_mul_scalar_self bv); apply q_mul_scalar_ok; [apply (newq_qval h0); exact Qb9|apply (newq_qval h0); exact Qb9|exact D9]|exact F9|wr|].
    intros h10 base' E10 F10 Q10. simpl bind.
    assert (Ebase : base' = base) by (destruct Q10; assumption). subst base'.
    assert (Qb10 := isq_newq _ _ _ _ _ _ F9 Lb Q10).
    assert (Qp10 := newq_but_q _ _ _ _ _ _ _ E10 Gb9 Np Qp9).
    assert (X10 : get h10 x = Some (VS xv)) by (eapply but_get; [exact E10|simpl; intros [<-|[]]; congruence|exact X9]).
    assert (O9 := ext_get _ _ _ _ E09 G1).
    assert (O10 : get h10 one = Some (VS fone)) by (eapply but_get; [exact E10|simpl; intros [<-|[]]; congruence|exact O9]).
    destruct (newq_get _ _ _ _ Qp10) as (pc & Gp10).
    eapply ref_step; [eapply q_add_ok; [exact Gp10|apply (newq_qval h0); exact Qp10|apply (newq_qval h0); exact Qb10]|exact F10|wr|].
    intros h11 po' E11 F11 Q11. assert (po' = po) by (destruct Q11; assumption). subst po'.
    assert (Qp11 := isq_newq _ _ _ _ _ _ F10 Lpo Q11).
    assert (Qb11 := newq_but_q _ _ _ _ _ _ _ E11 Gp10 (not_eq_sym Np) Qb10).
    assert (X11 : get h11 x = Some (VS xv)) by (eapply but_get; [exact E11|simpl; intros [<-|[]]; congruence|exact X10]).
    assert (O11 : get h11 one = Some (VS fone)) by (eapply but_get; [exact E11|simpl; intros [<-|[]]; congruence|exact O10]).
    (* the cell x does not occur in either polynomial: their cells are newer *)
    eapply ref_step; [eapply s_negate_ok; [exact X11|exact X11]|exact F11|wr|]. intros h12 nx E12 F12 [-> X12].
    assert (Lh9 : (List.length h9 <= List.length h10)%nat) by (destruct E10; assumption).
    assert (Lx9 := get_lt _ _ _ X9). assert (Lx10 := get_lt _ _ _ X10).
    assert (Qp12 : newq h0 h12 po (poly_add pv (map (fun i => fmul (coeff bv i) (fmul (fsub yv (evaluate_at pv xv)) (finv (evaluate_at bv xv)))) (seq 0 (List.length bv))))).
    { destruct Q11 as (_ & cs & G11 & S11 & F & _). eapply newq_but_s; [exact E12|lia| |congruence|exact Qp11].
      intros cs' G' I. assert (cs' = cs) by congruence. subst. rewrite Forall_forall in F. specialize (F _ I). simpl in F. lia. }
    assert (Qb12 : newq h0 h12 base (map (fun i => fmul (coeff bv i) (fmul (fsub yv (evaluate_at pv xv)) (finv (evaluate_at bv xv)))) (seq 0 (List.length bv)))).
    { destruct Q10 as (_ & cs & G10 & S10 & F & _).
      assert (Gb11 : get h11 base = Some (VQ cs)) by (eapply but_get; [exact E11|simpl; intros [<-|[]]; congruence|exact G10]).
      eapply newq_but_s; [exact E12|lia| |congruence|exact Qb11].
      intros cs' G' I. assert (cs' = cs) by congruence. subst. rewrite Forall_forall in F. specialize (F _ I). simpl in F. lia. }
    assert (No : one <> x) by (intros ->; apply get_lt in G1; lia).
    assert (O12 : get h12 one = Some (VS fone)) by (eapply but_get; [exact E12|nin|exact O11]).
    eapply ref_step; [apply q_new_ok|exact F12|wr|]. intros h13 f E13' F13 [Gf ->].
    assert (Qb13 := newq_ext _ _ _ _ _ E13' Qb12). assert (Qp13 := newq_ext _ _ _ _ _ E13' Qp12).
    destruct (newq_get _ _ _ _ Qb13) as (bc13 & Gb13).
    eapply ref_step; [eapply q_mul_ok with (rv := [fneg xv; fone]); [exact Gb13|apply (newq_qval h0); exact Qb13|]|exact F13|wr|].
    { eexists. split; [exact Gf|]. constructor; [exact (ext_get _ _ _ _ E13' X12)|]. constructor; [exact (ext_get _ _ _ _ E13' O12)|constructor]. }
    intros h14 base' E14 F14 Q14. assert (base' = base) by (destruct Q14; assumption). subst base'.
    apply IH; auto.
    + eapply but_get; [exact E14|simpl; intros [<-|[]]|exact (ext_get _ _ _ _ E13' O12)]. rewrite (ext_get _ _ _ _ E13' O12) in Gb13. discriminate.
    + eapply newq_but_q; [exact E14|exact Gb13|exact Np|exact Qp13].
    + eapply isq_newq; [exact F13|exact Lb|exact Q14].
Qed.
Lemma q_interpolate_ok h ss vs : Forall2 (pair_val h) ss vs -> refines [] h h (q_interpolate ss) (newq h) (interpolate vs).
Proof.
  intros S. destruct S as [|[sx sy] [xv yv] ss vs [Gx Gy] S]; simpl.
  - split; [apply app_ext|]. simpl. split; [lia|]. exists []. split; [apply app_new|]. split; constructor.
  - simpl in Gx, Gy.
    eapply ref_step; [apply s_new_ok|apply ext_refl|wr|]. intros h1 one E1 _ [O1 O2].
    eapply ref_step; [apply s_clone_ok; exact (ext_get _ _ _ _ E1 Gy)|exact E1|wr|]. intros h2 y0 E2 F2 [Y1 Y2].
    eapply ref_step; [apply q_new_ok|exact F2|wr|]. intros h3 po E3 F3 [P1 ->].
    eapply ref_step; [apply s_clone_ok; exact (ext_get _ _ _ _ F3 Gx)|exact F3|wr|]. intros h4 s0 E4 F4 [S1 S2].
    assert (L1 : (List.length h <= List.length h1)%nat) by (destruct E1; assumption).
    assert (L2 : (List.length h1 <= List.length h2)%nat) by (destruct E2; assumption).
    assert (L3 : (List.length h2 < List.length h3)%nat) by (eapply get_lt; exact P1).
    eapply ref_step; [eapply s_negate_ok; [exact S1|exact S1]|exact F4|wr|]. intros h5 s0' E5 F5 [-> S3].
    assert (E35 : ext h3 h5) by (eapply ext_but_ext; [exact E4|exact E5|exact S2]).
    eapply ref_step; [apply s_clone_ok; exact S3|exact F5|wr|]. intros h6 b0 E6 F6 [B1 B2].
    assert (E16 : ext h1 h6) by (eapply ext_trans; [exact E2|eapply ext_trans; [exact E3|eapply ext_trans; eauto]]).
    eapply ref_step; [apply s_clone_ok; exact (ext_get _ _ _ _ E16 O1)|exact F6|wr|]. intros h7 b1 E7 F7 [C1 C2].
    eapply ref_step; [apply q_new_ok|exact F7|wr|]. intros h8 base E8 F8 [D1 ->].
    assert (E38 : ext h3 h8) by (eapply ext_trans; [exact E35|eapply ext_trans; [exact E6|eapply ext_trans; eauto]]).
    assert (L5 : (List.length h3 <= List.length h5)%nat) by (destruct E35; assumption).
    assert (L6 : (List.length h5 <= List.length h6)%nat) by (destruct E6; assumption).
    assert (L7 : (List.length h6 <= List.length h7)%nat) by (destruct E7; assumption).
    apply q_interpolate_loop_ok; auto.
    + exact (ext_get _ _ _ _ (ext_trans _ _ _ _ E16 (ext_trans _ _ _ _ E7 E8)) O1).
    + split; [lia|]. exists [y0]. split; [exact (ext_get _ _ _ _ E38 P1)|]. split.
      * constructor; [|constructor]. exact (ext_get _ _ _ _ (ext_trans _ _ _ _ E3 E38) Y1).
      * constructor; [lia|constructor].
    + split; [lia|]. exists [b0; b1]. split; [exact D1|]. split.
      * constructor; [exact (ext_get _ _ _ _ (ext_trans _ _ _ _ E7 E8) B1)|]. constructor; [exact (ext_get _ _ _ _ E8 C1)|constructor].
      * constructor; [lia|]. constructor; [lia|constructor].
    + lia.
Qed.

(** ** poly/lagrange.go *)
Lemma wr_in (r : ptr) (ws : list ptr) (n : nat) : In r ws -> forall p, In p [r] -> In p ws \/ (n <= p)%nat.
Proof. intros I p [<-|[]]. now left. Qed.
Lemma ext_nil ws h h' : ext h h' -> ext_but ws h h'.
Proof. apply ext_weak. simpl; tauto. Qed.
Lemma but_fresh ws h0 h h' r : ext_but ws h0 h -> ext_but [r] h h' -> (List.length h0 <= r)%nat -> ext_but ws h0 h'.
Proof.
  intros [A B] [C D] L. split; [|lia]. intros p c N G0. apply C; [|apply A; auto]. intros [<-|[]]. apply get_lt in G0. lia.
Qed.
Lemma newss_cons h0 h1 h2 n ns v vs : get h2 n = Some (VS v) -> (List.length h0 <= n)%nat -> (n < List.length h1)%nat -> (List.length h0 <= List.length h1)%nat ->
  newss h1 h2 ns vs -> newss h0 h2 (n :: ns) (v :: vs).
Proof.
  intros G1 L1 L2 L3 (S & F & N). split; [now constructor|]. split.
  - constructor; [exact L1|]. eapply Forall_impl; [|exact F]. simpl. intros; lia.
  - constructor; [|exact N]. intros I. rewrite Forall_forall in F. specialize (F _ I). simpl in F. lia.
Qed.
Lemma l_prefix_ok value v : forall xs xv h tmp tv, svals h xs xv -> get h value = Some (VS v) ->
  get h tmp = Some (VS tv) -> tmp <> value -> ~ In tmp xs ->
  refines [tmp] h h (l_prefix value tmp xs) (newss h) (Ok (prefix_prods v tv xv)).
Proof.
  induction xs as [|sx xs IH]; intros xv h tmp tv S Gv Gt Nv Nx; inversion S as [|? x ? xv' Gx S' E1 E2]; subst.
  - simpl. apply ref_ret; [apply ext_refl|]. split; [constructor|]. split; constructor.
  - destruct xs as [|sx2 xs].
    + inversion S'; subst. simpl. eapply ref_step; [apply s_clone_ok; exact Gt|apply ext_refl|wr|]. intros h1 n E1 F1 [N1 N2].
      apply ref_ret; [exact F1|]. split; [constructor; [exact N1|constructor]|]. split; [constructor; [exact N2|constructor]|].
      constructor; [simpl; tauto|constructor].
    + remember (sx2 :: xs) as xs'. assert (El : l_prefix value tmp (sx :: xs') =
        hbind (s_clone tmp) (fun n => hbind (s_clone sx) (fun x => hbind (s_sub x x value) (fun d => hbind (s_mul tmp tmp d) (fun tmp =>
          hbind (l_prefix value tmp xs') (fun ns => hret (n :: ns))))))) by (subst; reflexivity).
      rewrite El. clear El Heqxs' sx2 xs. change (prefix_prods v tv (x :: xv')) with (tv :: prefix_prods v (fmul tv (fsub x v)) xv').
      eapply ref_step; [apply s_clone_ok; exact Gt|apply ext_refl|wr|]. intros h1 n E1 F1 [N1 N2].
      eapply ref_step; [apply s_clone_ok; exact (ext_get _ _ _ _ E1 Gx)|exact F1|wr|]. intros h2 xc E2 F2 [X1 X2].
      assert (E02 : ext h h2) by (eapply ext_trans; eauto).
      assert (L1 : (List.length h <= List.length h1)%nat) by (destruct E1; assumption).
      assert (L2 : (List.length h1 <= List.length h2)%nat) by (destruct E2; assumption).
      assert (Ln := get_lt _ _ _ N1). assert (Lt := get_lt _ _ _ Gt). assert (Lv := get_lt _ _ _ Gv).
      eapply ref_step; [eapply s_sub_ok; [exact X1|exact X1|exact (ext_get _ _ _ _ E02 Gv)]|exact F2|wr|]. intros h3 d E3 F3 [-> D1].
      assert (E03 : ext h h3) by (eapply ext_but_ext; [exact E02|exact E3|lia]).
      assert (T3 := ext_get _ _ _ _ E03 Gt).
      eapply ref_step; [eapply s_mul_ok; [exact T3|exact T3|exact D1]|exact F3|wr|]. intros h4 t4 E4 F4 [-> T4].
      assert (N4 : get h4 n = Some (VS tv)).
      { eapply but_get; [exact E4|nin|]. eapply but_get; [exact E3|nin|]. exact (ext_get _ _ _ _ E2 N1). }
      assert (L4 : (List.length h2 <= List.length h4)%nat) by (destruct E3, E4; lia).
      eapply ref_step; [eapply IH with (tv := fmul tv (fsub x v))|exact F4|apply wr_in; now left|].
      * eapply svals_but; [exact F4| |exact S']. intros q [<-|[]] I. apply Nx. now right.
      * eapply but_get; [exact F4|nin|exact Gv].
      * exact T4.
      * exact Nv.
      * intros I. apply Nx. now right.
      * intros h5 ns E5 F5 Q. apply ref_ret; [exact F5|]. eapply (newss_cons h h4); [| | | |exact Q]; try lia.
        eapply but_get; [exact E5|nin|exact N4].
Qed.

Fixpoint sfx (v t : Fq) (xs ns : list Fq) : list Fq :=
  match xs, ns with
  | x :: xs, n :: ns => let t' := fmul t (fsub x v) in fmul n t' :: sfx v t' xs ns
  | _, _ => []
  end.
Lemma svals_cons_but h h' c n ns v vs : svals h (n :: ns) (v :: vs) -> NoDup (n :: ns) -> ext_but [n] h h' -> get h' n = Some (VS c) -> svals h' (n :: ns) (c :: vs).
Proof.
  intros S N E G1. inversion S; subst. inversion N; subst. constructor; [exact G1|].
  eapply svals_but; [exact E| |eassumption]. intros q [<-|[]] I. auto.
Qed.
Lemma l_suffix_ok value v : forall xs xv ns nv h tmp tv, svals h xs xv -> svals h ns nv -> List.length xs = List.length ns -> NoDup ns ->
  get h value = Some (VS v) -> get h tmp = Some (VS tv) ->
  ~ In tmp (value :: xs) -> ~ In tmp ns -> (forall p, In p ns -> ~ In p (value :: xs)) ->
  refines (tmp :: ns) h h (l_suffix value tmp xs ns) (fun h' _ vs => svals h' ns vs) (Ok (sfx v tv xv nv)).
Proof.
  induction xs as [|sx xs IH]; intros xv ns nv h tmp tv Sx Sn Le Nd Gv Gt Nt Nn Nx;
    destruct ns as [|n ns]; try discriminate; inversion Sx as [|? x ? xv' Gx Sx']; inversion Sn as [|? w ? nv' Gn Sn']; subst.
  - simpl. apply ref_ret; [apply ext_refl|constructor].
  - simpl l_suffix. change (sfx v tv (x :: xv') (w :: nv')) with (fmul w (fmul tv (fsub x v)) :: sfx v (fmul tv (fsub x v)) xv' nv').
    eapply ref_step; [apply s_clone_ok; exact Gx|apply ext_refl|wr|]. intros h1 xc E1 F1 [X1 X2].
    eapply ref_step; [eapply s_sub_ok; [exact X1|exact X1|exact (ext_get _ _ _ _ E1 Gv)]|exact F1|wr|]. intros h2 d E2 F2 [-> D1].
    assert (E02 : ext h h2) by (eapply ext_but_ext; [exact E1|exact E2|lia]).
    assert (T2 := ext_get _ _ _ _ E02 Gt).
    eapply ref_step; [eapply s_mul_ok; [exact T2|exact T2|exact D1]|exact F2|apply wr_in; now left|]. intros h3 t3 E3 F3 [-> T3].
    assert (E03 : ext_but [tmp] h h3) by (eapply ext_trans; [apply ext_nil; exact E02|exact E3]).
    assert (N3 : get h3 n = Some (VS w)).
    { eapply but_get; [exact E03| |exact Gn]. intros [->|[]]. apply Nn. now left. }
    eapply ref_step; [eapply s_mul_ok; [exact N3|exact N3|exact T3]|exact F3|apply wr_in; right; now left|]. intros h4 n4 E4 F4 [-> N4].
    assert (Nt' : tmp <> n) by (intros ->; apply Nn; now left).
    inversion Nd as [|? ? Nd1 Nd2]; subst.
    assert (S3 : svals h3 ns nv').
    { eapply svals_but; [exact E03| |exact Sn']. intros q [<-|[]] I. apply Nn. now right. }
    assert (S4 : svals h4 ns nv').
    { eapply svals_but; [exact E4| |exact S3]. intros q [<-|[]] I. auto. }
    assert (X3 : svals h3 xs xv').
    { eapply svals_but; [exact E03| |exact Sx']. intros q [<-|[]] I. apply Nt. right. now right. }
    assert (X4 : svals h4 xs xv').
    { eapply svals_but; [exact E4| |exact X3]. intros q [<-|[]] I. apply (Nx n); [now left|]. right. now right. }
    assert (V4 : get h4 value = Some (VS v)).
    { eapply but_get; [exact E4|intros [->|[]]; apply (Nx value); [now left|now left]|].
      eapply but_get; [exact E03|intros [->|[]]; apply Nt; now left|exact Gv]. }
    assert (Le' : List.length xs = List.length ns) by (simpl in Le; lia).
    assert (Q : refines (tmp :: ns) h4 h4 (l_suffix value tmp xs ns) (fun h' _ vs => svals h' ns vs) (Ok (sfx v (fmul tv (fsub x v)) xv' nv'))).
    { apply IH; auto.
      - eapply but_get; [exact E4|nin|exact T3].
      - intros [I|I]; apply Nt; [left; exact I|right; right; exact I].
      - intros I. apply Nn. now right.
      - intros p I [J|J]; apply (Nx p); [right; exact I|left; exact J|right; exact I|right; right; exact J]. }
    eapply ref_conseq; [exact Q|exact F4| |].
    + intros p [<-|I]; left; [now left|right; now right].
    + intros h5 u E5 S5. constructor; [|exact S5]. eapply but_get; [exact E5| |exact N4]. intros [J|J]; [apply Nt'; exact J|exact (Nd1 J)].
Qed.

(** the second loop, seen from the front *)
Lemma sfx_app v : forall A B t x n, List.length A = List.length B -> sfx v t (A ++ [x]) (B ++ [n]) = sfx v t A B ++ [fmul n (fold_left (fun t x => fmul t (fsub x v)) (A ++ [x]) t)].
Proof.
  induction A as [|a A IH]; intros B t x n L; destruct B as [|b B]; try discriminate; simpl; [reflexivity|].
  f_equal. rewrite IH by (simpl in L; lia). reflexivity.
Qed.
Lemma suffix_fst v : forall xs, fst (suffix_prods v xs) = fold_left (fun t x => fmul t (fsub x v)) (rev xs) fone.
Proof.
  induction xs as [|x xs IH]; simpl; [reflexivity|]. destruct (suffix_prods v xs) as [t l]. simpl in *. rewrite fold_left_app, <- IH. reflexivity.
Qed.
Lemma suffix_length v : forall xs, List.length (snd (suffix_prods v xs)) = List.length xs.
Proof. induction xs as [|x xs IH]; simpl; [reflexivity|]. destruct (suffix_prods v xs). simpl in *. congruence. Qed.
Lemma fmul_one_r (a : Fq) : fmul a fone = a.
Proof. ring. Qed.
Lemma sfx_front v : forall xs x0 n0 ns d, List.length ns = List.length xs ->
  rev (hd d (rev (n0 :: ns)) :: sfx v fone (rev xs) (tl (rev (n0 :: ns)))) =
  map (fun '(a, b) => fmul a b) (combine (n0 :: ns) (snd (suffix_prods v (x0 :: xs)))).
Proof.
  induction xs as [|x1 xs IH]; intros x0 n0 ns d L; destruct ns as [|n1 ns]; try discriminate.
  - simpl. now rewrite fmul_one_r.
  - specialize (IH x1 n1 ns d ltac:(simpl in L; lia)).
    change (rev (n0 :: n1 :: ns)) with (rev (n1 :: ns) ++ [n0]).
    assert (Hr : exists y r, rev (n1 :: ns) = y :: r).
    { destruct (rev (n1 :: ns)) eqn:E; [|eauto]. apply (f_equal (@List.length Fq)) in E. rewrite rev_length in E. discriminate. }
    destruct Hr as (y & r & Hr). rewrite Hr in *. cbn [hd tl app] in *.
    change (rev (x1 :: xs)) with (rev xs ++ [x1]). rewrite sfx_app.
    2: { apply (f_equal (@List.length Fq)) in Hr. rewrite rev_length in Hr. rewrite rev_length. simpl in *. lia. }
    rewrite app_comm_cons, rev_app_distr. cbn [rev app] in *. 
    assert (Es : snd (suffix_prods v (x0 :: x1 :: xs)) = fst (suffix_prods v (x1 :: xs)) :: snd (suffix_prods v (x1 :: xs))).
    { cbn [suffix_prods]. destruct (suffix_prods v xs). reflexivity. }
    rewrite Es. cbn [combine map]. f_equal.
    + f_equal. symmetry. apply (suffix_fst v (x1 :: xs)).
    + exact IH.
Qed.
Lemma svals_rev h ps vs : svals h ps vs -> svals h (rev ps) (rev vs).
Proof. induction 1; simpl; [constructor|apply Forall2_app; auto]. Qed.
Lemma prefix_length v : forall xs t, List.length (prefix_prods v t xs) = List.length xs.
Proof. induction xs; intros; simpl; auto. Qed.

Lemma l_denominator_ok h0 xi x : get h0 xi = Some (VS x) -> forall xs xv, svals h0 xs xv -> forall h denom dv, ext h0 h ->
  get h denom = Some (VS dv) -> (List.length h0 <= denom)%nat ->
  refines [] h0 h (l_denominator xi denom xs) (news h0)
    (Ok (fold_left (fun denom xj => if feqb x xj then denom else fmul denom (fsub xj x)) xv dv)).
Proof.
  intros Gi xs xv S. induction S as [|sx y xs xv Gx S IH]; intros h denom dv E Gd L; simpl.
  - apply ref_ret; [exact E|]. split; auto.
  - eapply ref_step; [apply s_clone_ok; exact (ext_get _ _ _ _ E Gx)|exact E|wr|]. intros h1 xj E1 F1 [X1 X2].
    eapply ref_step; [apply s_equal_ok; [exact (ext_get _ _ _ _ F1 Gi)|exact X1]|exact F1|wr|]. intros h2 b E2 F2 ->.
    assert (Ld := get_lt _ _ _ Gd). assert (L0 : (List.length h0 <= List.length h)%nat) by (destruct E; assumption).
    assert (D2 := ext_get _ _ _ _ (ext_trans _ _ _ _ E1 E2) Gd).
    destruct (feqb x y); [apply IH; auto|].
    assert (X3 := ext_get _ _ _ _ E2 X1).
    eapply ref_step; [eapply s_sub_ok; [exact X3|exact X3|exact (ext_get _ _ _ _ F2 Gi)]|exact F2|wr|]. intros h3 d E3 F3 [-> T1].
    assert (D3 : get h3 denom = Some (VS dv)) by (eapply but_get; [exact E3|nin|exact D2]).
    eapply ref_step; [eapply s_mul_ok; [exact D3|exact D3|exact T1]|exact F3|wr|]. intros h4 d' E4 F4 [-> T2].
    apply IH; auto.
Qed.
Lemma l_denominator_full h xi x all av : get h xi = Some (VS x) -> svals h all av ->
  refines [] h h (hbind (s_new fone) (fun one => l_denominator xi one all)) (news h) (Ok (denominator x av)).
Proof.
  intros Gx Sa. eapply ref_step; [apply s_new_ok|apply ext_refl|wr|]. intros h1 o E1 F1 [O1 O2]. now apply l_denominator_ok.
Qed.
Definition fin_one (av : list Fq) (e : Fq * Fq) : res Fq :=
  let '(n, xi) := e in let inv := finv (denominator xi av) in if feqb inv fzero then Err else Ok (fmul n inv).
Lemma l_finish_ok all av : forall xs xv ns nv h, svals h all av -> svals h xs xv -> svals h ns nv -> List.length xs = List.length ns -> NoDup ns ->
  (forall p, In p ns -> ~ In p all /\ ~ In p xs) ->
  refines ns h h (l_finish all xs ns) (fun h' _ vs => svals h' ns vs) (mapM (fin_one av) (combine nv xv)).
Proof.
  induction xs as [|xi xs IH]; intros xv ns nv h Sa Sx Sn Le Nd Dj;
    destruct ns as [|n ns]; try discriminate; inversion Sx as [|? x ? xv' Gx Sx']; inversion Sn as [|? w ? nv' Gn Sn']; subst.
  - simpl. apply ref_ret; [apply ext_refl|constructor].
  - cbn [l_finish combine mapM]. unfold fin_one at 1.
    apply ref_assoc. eapply ref_step; [apply (l_denominator_full h xi x all av Gx Sa)|apply ext_refl|wr|]. intros h1 d E1 F1 [D1 D2].
    eapply ref_step; [eapply s_invert_ok; [exact D1|exact D1]|exact F1|wr|]. intros h2 d' E2 F2 [-> D3].
    assert (E02 : ext h h2) by (eapply ext_but_ext; [exact E1|exact E2|exact D2]).
    eapply ref_step; [apply s_is_zero_ok; exact D3|exact F2|wr|]. intros h3 b E3 F3 ->.
    destruct (feqb (finv (denominator x av)) fzero); [apply ref_err; exact F3|].
    assert (E03 : ext h h3) by (eapply ext_trans; eauto).
    assert (N3 := ext_get _ _ _ _ E03 Gn).
    simpl bind. eapply ref_step; [eapply s_mul_ok; [exact N3|exact N3|exact (ext_get _ _ _ _ E3 D3)]|exact F3|apply wr_in; now left|].
    intros h4 n4 E4 F4 [-> N4]. inversion Nd as [|? ? Nd1 Nd2]; subst.
    assert (E04 : ext_but [n] h h4) by (eapply ext_trans; [apply ext_nil; exact E03|exact E4]).
    destruct (Dj n (or_introl eq_refl)) as [Dn1 Dn2].
    assert (Q : refines ns h4 h4 (l_finish all xs ns) (fun h' _ vs => svals h' ns vs) (mapM (fin_one av) (combine nv' xv'))).
    { apply IH; auto.
      - eapply svals_but; [exact E04| |exact Sa]. intros q [<-|[]]; auto.
      - eapply svals_but; [exact E04| |exact Sx']. intros q [<-|[]] I. apply Dn2. now right.
      - eapply svals_but; [exact E04| |exact Sn']. intros q [<-|[]] I. auto.
      - intros p I. destruct (Dj p (or_intror I)) as [J1 J2]. split; [exact J1|]. intros K. apply J2. now right. }
    destruct Q as [Qe Qr]. split.
    + eapply ext_trans; [exact F4|]. eapply ext_weak; [|exact Qe]. intros p I. now right.
    + destruct (mapM (fin_one av) (combine nv' xv')) as [vs| | |]; destruct (snd (l_finish all xs ns h4)); simpl in Qr |- *; try contradiction; auto.
      constructor; [|exact Qr]. eapply but_get; [exact Qe|exact Nd1|exact N4].
Qed.
Lemma svals_tl h ps vs : svals h ps vs -> svals h (tl ps) (tl vs).
Proof. destruct 1; [constructor|assumption]. Qed.
Lemma rev_last (l : list ptr) : l <> [] -> exists a r, rev l = a :: r /\ l = rev r ++ [a].
Proof.
  intros N. destruct (rev l) as [|a r] eqn:E.
  - apply (f_equal (@rev ptr)) in E. rewrite rev_involutive in E. contradiction.
  - exists a, r. split; [reflexivity|]. rewrite <- (rev_involutive l), E. reflexivity.
Qed.

Lemma l_at_value_ok h value v samples : get h value = Some (VS v) ->
  refines [] h h (l_at_value value samples) (newss h) (lagrange_at_value v samples).
Proof.
  intros Gv. destruct samples as [|i0 [|i1 samples]].
  - apply ref_err, ext_refl.
  - simpl. eapply ref_step; [apply s_new_ok|apply ext_refl|wr|]. intros h1 o E1 F1 [O1 O2]. apply ref_ret; [exact F1|].
    split; [constructor; [exact O1|constructor]|]. split; [constructor; [exact O2|constructor]|]. constructor; [simpl; tauto|constructor].
  - remember (i1 :: samples) as rest. assert (El : l_at_value value (i0 :: rest) =
      if negb (check_dups (i0 :: rest)) then herr else
      hbind (hmap (fun i => s_new (from_node_index i)) (i0 :: rest)) (fun xs =>
      hbind (s_new fone) (fun tmp => hbind (l_prefix value tmp xs) (fun ns => hbind (s_new fone) (fun tmp =>
      hbind (l_suffix value tmp (rev (tl xs)) (tl (rev ns))) (fun _ => hbind (l_finish xs xs ns) (fun _ => hret ns)))))))
      by (subst; reflexivity).
    assert (Ep : lagrange_at_value v (i0 :: rest) =
      if negb (check_dups (i0 :: rest)) then Err else
      let xs := map from_node_index (i0 :: rest) in
      mapM (fin_one xs) (combine (map (fun '(a, b) => fmul a b) (combine (prefix_prods v fone xs) (snd (suffix_prods v xs)))) xs)).
    { subst. reflexivity. }
    rewrite El, Ep. clear El Ep Heqrest i1 samples. destruct (negb (check_dups (i0 :: rest))); [apply ref_err, ext_refl|].
    set (xv := map from_node_index (i0 :: rest)).
    eapply ref_step; [apply hmap_new; intros; apply s_new_ok|apply ext_refl|wr|]. fold xv. intros h1 xs E1 F1 (Sx & Fx & Nx).
    eapply ref_step; [apply s_new_ok|exact F1|wr|]. intros h2 tmp E2 F2 [T1 T2].
    assert (Gv2 := ext_get _ _ _ _ F2 Gv). assert (Lv := get_lt _ _ _ Gv).
    assert (L1 : (List.length h <= List.length h1)%nat) by (destruct E1; assumption).
    assert (Lx := svals_lt _ _ _ Sx). rewrite Forall_forall in Lx.
    eapply ref_step; [eapply l_prefix_ok with (tv := fone); [eapply svals_ext; [exact E2|exact Sx]|exact Gv2|exact T1|lia|]|exact F2|wr|].
    { intros I. specialize (Lx _ I). simpl in Lx. lia. }
    intros h3 ns E3 F3 (Sn & Fn & Nn). set (nv := prefix_prods v fone xv) in *.
    assert (Ex3 : svals h3 xs xv).
    { eapply svals_but; [exact E3| |eapply svals_ext; [exact E2|exact Sx]]. intros q [<-|[]] I. specialize (Lx _ I). simpl in Lx. lia. }
    eapply ref_step; [apply s_new_ok|exact F3|wr|]. intros h4 tmp2 E4 F4 [U1 U2].
    assert (Gv4 := ext_get _ _ _ _ F4 Gv).
    assert (Sn4 := svals_ext _ _ _ _ E4 Sn). assert (Sx4 := svals_ext _ _ _ _ E4 Ex3).
    assert (Lnx : List.length ns = List.length xs).
    { rewrite (svals_length _ _ _ Sn), (svals_length _ _ _ Sx). apply prefix_length. }
    assert (L2 : (List.length h1 <= List.length h2)%nat) by (destruct E2; assumption).
    assert (Ln3 := svals_lt _ _ _ Sn). rewrite Forall_forall in Ln3, Fn.
    assert (Lx3 := svals_lt _ _ _ Ex3). rewrite Forall_forall in Lx3.
    assert (Hns : exists na nr, rev ns = na :: nr /\ ns = rev nr ++ [na]).
    { apply rev_last. intros ->. apply svals_length in Sx. unfold xv in Sx. simpl in Sx, Lnx. lia. }
    destruct Hns as (na & nr & Hr & Hn). rewrite Hr. cbn [tl].
    assert (Nr : NoDup (na :: nr)) by (rewrite <- Hr; apply NoDup_rev; exact Nn).
    inversion Nr as [|? ? Nr1 Nr2]; subst x l.
    assert (In_nr : forall p, In p nr -> In p ns) by (intros p I; rewrite Hn; apply in_or_app; left; rewrite <- in_rev; exact I).
    assert (Svr := svals_rev _ _ _ Sn4). rewrite Hr in Svr.
    eapply ref_step with (ws1 := tmp2 :: nr); [eapply l_suffix_ok with (tv := fone) (xv := rev (tl xv)) (nv := tl (rev nv))|exact F4| |].
    + apply svals_rev, svals_tl. exact Sx4.
    + apply svals_tl in Svr. exact Svr.
    + assert (List.length (rev ns) = S (List.length nr)) by (rewrite Hr; reflexivity). rewrite rev_length in *. destruct xs; simpl in *; lia.
    + exact Nr2.
    + exact Gv4.
    + exact U1.
    + intros [I|I]; [destruct F3; simpl in *; lia|]. rewrite <- in_rev in I.
      assert (In tmp2 xs) by (destruct xs; [exact I|right; exact I]). specialize (Lx3 _ H). simpl in Lx3. lia.
    + intros I. specialize (Ln3 _ (In_nr _ I)). simpl in Ln3. lia.
    + intros p I [J|J].
      * subst p. specialize (Fn _ (In_nr _ I)). simpl in Fn. destruct E2. simpl in *. lia.
      * rewrite <- in_rev in J. assert (In p xs) by (destruct xs; [exact J|right; exact J]).
        specialize (Fn _ (In_nr _ I)). specialize (Lx _ H). simpl in Fn, Lx. lia.
    + intros p [<-|I]; right; [destruct F3; simpl in *; lia|]. specialize (Fn _ (In_nr _ I)). simpl in Fn. destruct F2. lia.
    + intros h5 u E5 F5 S5.
      assert (Na5 : get h5 na = Some (VS (hd fzero (rev nv)))).
      { revert Svr. generalize (rev nv). intros rnv Svr. inversion Svr as [|? w ? wl Gw Sw Ea Eb]. simpl. eapply but_get; [exact E5| |exact Gw].
        intros [J|J]; [|exact (Nr1 J)]. assert (I : In na ns) by (rewrite Hn; apply in_or_app; right; now left).
        specialize (Ln3 _ I). simpl in Ln3. lia. }
      assert (Sn5 : svals h5 ns (map (fun '(a, b) => fmul a b) (combine nv (snd (suffix_prods v xv))))).
      { unfold nv, xv. cbn [map]. destruct (prefix_prods v fone (from_node_index i0 :: map from_node_index rest)) as [|n0 nt] eqn:Epre; [discriminate|].
        rewrite <- (sfx_front v (map from_node_index rest) (from_node_index i0) n0 nt fzero).
        2: { apply (f_equal (@List.length Fq)) in Epre. rewrite prefix_length in Epre. simpl in Epre. lia. }
        rewrite Hn. replace (rev nr ++ [na]) with (rev (na :: nr)) by reflexivity. apply svals_rev. constructor.
        - unfold nv, xv in Na5. cbn [map] in Na5. rewrite Epre in Na5. exact Na5.
        - unfold nv, xv in S5. cbn [map tl] in S5. rewrite Epre in S5. exact S5. }
      assert (Sx5 : svals h5 xs xv).
      { eapply svals_but; [exact E5| |exact Sx4]. intros q [<-|I] J.
        - specialize (Lx3 _ J). simpl in Lx3. lia.
        - specialize (Fn _ (In_nr _ I)). specialize (Lx _ J). simpl in Fn, Lx. lia. }
      assert (Qf : refines [] h h5 (l_finish xs xs ns) (fun h' _ vs => newss h h' ns vs)
        (mapM (fin_one xv) (combine (map (fun '(a, b) => fmul a b) (combine nv (snd (suffix_prods v xv)))) xv))).
      { eapply ref_mono with (R := fun h' _ vs => svals h' ns vs).
        - intros h' _ vs S'. split; [exact S'|]. split; [|exact Nn]. apply Forall_forall. intros p I. specialize (Fn _ I). simpl in Fn. destruct F2. lia.
        - eapply ref_from; [apply l_finish_ok; auto|exact F5|].
          + intros p I. assert (~ In p xs). { intros J. specialize (Fn _ I). specialize (Lx _ J). simpl in Fn, Lx. lia. } auto.
          + intros p I. right. specialize (Fn _ I). simpl in Fn. destruct F2. lia. }
      destruct Qf as [Qe Qr]. unfold refines, hbind. destruct (l_finish xs xs ns h5) as [h6 x]. simpl in Qe, Qr.
      destruct (mapM (fin_one xv) _) as [vs| | |]; destruct x; simpl in Qr |- *; try contradiction; split; auto.
Qed.
Lemma l_at_zero_ok h samples : refines [] h h (l_at_zero samples) (newss h) (lagrange_at_zero samples).
Proof.
  unfold l_at_zero, lagrange_at_zero. eapply ref_step; [apply s_new_ok|apply ext_refl|wr|]. intros h1 z E1 F1 [Z1 Z2].
  eapply ref_mono; [|eapply ref_from; [apply (l_at_value_ok h1 z fzero); exact Z1|exact F1|wr]].
  intros h' ps vs (S & F & N). split; [exact S|]. split; [|exact N]. eapply Forall_impl; [|exact F]. simpl. destruct E1. intros; lia.
Qed.
Lemma l_sum_scalars_ok h0 : forall cs cv, svals h0 cs cv -> forall ys yv, svals h0 ys yv -> forall h r rv, ext h0 h -> get h r = Some (VS rv) -> (List.length h0 <= r)%nat ->
  refines [] h0 h (l_sum_scalars r cs ys) (news h0) (Ok (fold_left (fun r cy => fadd r (fmul (snd cy) (fst cy))) (combine cv yv) rv)).
Proof.
  intros cs cv Sc. induction Sc as [|c a cs cv Gc Sc IH]; intros ys yv Sy h r rv E Gr L; [|destruct Sy as [|y b ys yv Gy Sy]]; simpl;
    try (apply ref_ret; [exact E|]; split; auto).
  eapply ref_step; [apply s_clone_ok; exact (ext_get _ _ _ _ E Gc)|exact E|wr|]. intros h1 co E1 F1 [C1 C2].
  eapply ref_step; [apply s_clone_ok; exact (ext_get _ _ _ _ F1 Gy)|exact F1|wr|]. intros h2 sm E2 F2 [S1 S2].
  assert (L0 : (List.length h0 <= List.length h)%nat) by (destruct E; assumption).
  assert (L1 : (List.length h <= List.length h1)%nat) by (destruct E1; assumption). assert (Lr := get_lt _ _ _ Gr).
  eapply ref_step; [eapply s_mul_ok; [exact S1|exact S1|exact (ext_get _ _ _ _ E2 C1)]|exact F2|wr|]. intros h3 t E3 F3 [-> T1].
  assert (R3 : get h3 r = Some (VS rv)) by (eapply but_get; [exact E3|nin|exact (ext_get _ _ _ _ (ext_trans _ _ _ _ E1 E2) Gr)]).
  eapply ref_step; [eapply s_add_ok; [exact R3|exact R3|exact T1]|exact F3|wr|]. intros h4 r' E4 F4 [-> R4].
  apply IH; auto.
Qed.
Lemma l_interpolate_scalar_ok h cs cv ys yv : svals h cs cv -> svals h ys yv ->
  refines [] h h (l_interpolate_scalar cs ys) (news h) (interpolate_scalar cv yv).
Proof.
  intros Sc Sy. unfold l_interpolate_scalar, interpolate_scalar. rewrite (svals_length _ _ _ Sc), (svals_length _ _ _ Sy).
  destruct (negb _); [apply ref_err, ext_refl|]. destruct Sc as [|c a cs cv Gc Sc]; [apply ref_panic, ext_refl|].
  eapply ref_step; [apply s_new_ok|apply ext_refl|wr|]. intros h1 r E1 F1 [R1 R2].
  apply l_sum_scalars_ok; auto. now constructor.
Qed.
Lemma l_sum_points_ok h0 : forall cs cv, svals h0 cs cv -> forall ys yv, pvals h0 ys yv -> forall h r rv, ext h0 h -> get h r = Some (VP rv) -> (List.length h0 <= r)%nat ->
  refines [] h0 h (l_sum_points r cs ys) (newp h0) (Ok (fold_left (fun r cy => gadd r (smul (fst cy) (snd cy))) (combine cv yv) rv)).
Proof.
  intros cs cv Sc. induction Sc as [|c a cs cv Gc Sc IH]; intros ys yv Sy h r rv E Gr L; [|destruct Sy as [|y b ys yv Gy Sy]]; simpl;
    try (apply ref_ret; [exact E|]; split; auto).
  eapply ref_step; [apply s_clone_ok; exact (ext_get _ _ _ _ E Gc)|exact E|wr|]. intros h1 co E1 F1 [C1 C2].
  eapply ref_step; [apply p_clone_ok; exact (ext_get _ _ _ _ F1 Gy)|exact F1|wr|]. intros h2 sm E2 F2 [S1 S2].
  assert (L0 : (List.length h0 <= List.length h)%nat) by (destruct E; assumption).
  assert (L1 : (List.length h <= List.length h1)%nat) by (destruct E1; assumption). assert (Lr := get_lt _ _ _ Gr).
  eapply ref_step; [eapply p_scalar_mul_ok; [exact S1|exact S1|exact (ext_get _ _ _ _ E2 C1)]|exact F2|wr|]. intros h3 t E3 F3 [-> T1].
  assert (R3 : get h3 r = Some (VP rv)) by (eapply but_get; [exact E3|nin|exact (ext_get _ _ _ _ (ext_trans _ _ _ _ E1 E2) Gr)]).
  eapply ref_step; [eapply p_add_ok; [exact R3|exact R3|exact T1]|exact F3|wr|]. intros h4 r' E4 F4 [-> R4].
  apply IH; auto.
Qed.
Lemma l_interpolate_point_ok h cs cv ys yv : svals h cs cv -> pvals h ys yv ->
  refines [] h h (l_interpolate_point cs ys) (newp h) (interpolate_point cv yv).
Proof.
  intros Sc Sy. unfold l_interpolate_point, interpolate_point. rewrite (svals_length _ _ _ Sc), (pvals_length _ _ _ Sy).
  destruct (negb _); [apply ref_err, ext_refl|]. destruct Sc as [|c a cs cv Gc Sc]; [apply ref_panic, ext_refl|].
  eapply ref_step; [apply p_new_ok|apply ext_refl|wr|]. intros h1 r E1 F1 [R1 R2].
  apply l_sum_points_ok; auto. now constructor.
Qed.
End HeapProofs2.
