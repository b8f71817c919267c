(** C73: field arithmetic and hashing to the curve with explicit memory. *)
From Coq Require Import ZArith Lia Bool String List Ring.
From Verif Require Import Base BaseFacts Zmod Fields ModelScalar ModelXmd ModelRo ModelPoly ModelGroup ModelSecp ModelH2C ModelHeap
  ModelHeapSign ModelHeapH2C SpecHeap SpecHeapH2C ProofHeap ProofFrame ProofFrameH2C ProofHeapH2C PropHeap ProofFp.
From Verif Require Toy.
Import ListNotations.
Open Scope Z_scope.

Ltac conj := repeat match goal with |- _ /\ _ => split end.
Ltac fw fr := eapply wf with (P := fun ws h0 a => okp ws h0 a); [intros; apply fr|intros; now apply okp_fresh].
Ltac kw fr := apply frame_writes; intros; apply fr.
Ltac rw fr := eapply wf with (P := fun _ _ _ => True); [intros; eapply fr_true, fr; left; now left|auto].

(** ** Whatever the memory and the pointers *)
Theorem C73_field_methods_write_only_the_receiver :
  forall (X : Oracles) (GO : Grp) (r a b : ptr) (c : bool),
  writes_only [r] (f_assign r a) (fun _ _ => True) /\
  writes_only [r] (f_add r a b) (fun _ _ => True) /\
  writes_only [r] (f_sub r a b) (fun _ _ => True) /\
  writes_only [r] (f_mul r a b) (fun _ _ => True) /\
  writes_only [r] (f_square r a) (fun _ _ => True) /\
  writes_only [r] (f_cassign r a c) (fun _ _ => True) /\
  writes_only [r] (f_invert r a) (fun _ _ => True) /\
  writes_only [r] (f_negate r a) (fun _ _ => True) /\
  writes_only [r] (f_sqrt r a) (fun _ _ => True) /\
  writes_only [r] (f_progenitor r a) (fun _ _ => True) /\
  writes_only [] (f_clone a) (fun h p => fresh h p) /\
  writes_only [] (f_equal a b) (fun _ _ => True) /\
  writes_only [] (f_is_zero a) (fun _ _ => True) /\
  writes_only [] (f_sign a) (fun _ _ => True).
Proof.
  intros. conj.
  - rw @fr_f_assign.
  - rw @fr_f_add.
  - rw @fr_f_sub.
  - rw @fr_f_mul.
  - rw @fr_f_square.
  - rw @fr_f_cassign.
  - rw @fr_f_invert.
  - rw @fr_f_negate.
  - rw @fr_f_sqrt.
  - rw @fr_f_progenitor.
  - fw @fr_f_clone.
  - kw @fr_f_equal.
  - kw @fr_f_is_zero.
  - kw @fr_f_sign.
Qed.

Theorem C73_hash_to_curve_changes_nothing :
  forall (X : Oracles) (GO : Grp) (kc : nat -> ptr) (u v x a b c d : ptr) (choice : bool) (n : nat) (input dst : bytes),
  writes_only [] (h_cmov a b choice) (fun h p => fresh h p) /\
  writes_only [] (h_sqrt_ratio u v) (fun h r => fresh h (fst r)) /\
  writes_only [] (h_sswu u) (fun h r => fresh h (fst r) /\ fresh h (snd r)) /\
  writes_only [] (h_x2_xc1_c2 x a b) (fun h p => fresh h p) /\
  writes_only [] (h_x3_x2c1_xc2_c3 x a b c) (fun h p => fresh h p) /\
  writes_only [] (h_x3c1_x2c2_xc3_c4 x a b c d) (fun h p => fresh h p) /\
  writes_only [] (h_map_to_curve kc u) (fun _ _ => True) /\
  writes_only [] (h_hash_to_field n input dst) (fun h l => Forall (fresh h) l) /\
  writes_only [] (h_hash_to_curve_ro kc input dst) (fun _ _ => True).
Proof.
  intros. conj.
  - fw @fr_h_cmov.
  - eapply wf with (P := fun ws h0 r => okp ws h0 (fst r)); [intros; apply fr_h_sqrt_ratio|intros; now apply okp_fresh].
  - eapply wf with (P := fun ws h0 r => okp ws h0 (fst r) /\ okp ws h0 (snd r)); [intros; apply fr_h_sswu|].
    intros h0 r [A B]. split; now apply okp_fresh.
  - fw @fr_h_x2.
  - fw @fr_h_x3.
  - fw @fr_h_x3c.
  - kw @fr_h_map_to_curve.
  - eapply wf with (P := fun ws h0 l => Forall (okp ws h0) l); [intros; apply fr_h_hash_to_field|intros; now apply fresh_list].
  - kw @fr_h_hash_to_curve_ro.
Qed.

(** the isogeny may write its second argument and nothing else *)
Theorem C73_isogeny_writes_only_y :
  forall (X : Oracles) (GO : Grp) (kc : nat -> ptr) (x y : ptr),
  writes_only [y] (h_sswu_isogeny kc x y) (fun h r => fst r = y \/ fresh h (fst r)).
Proof.
  intros. eapply wf with (P := fun ws h0 r => okp ws h0 (fst r) /\ okp ws h0 (snd r)).
  - intros. apply fr_h_sswu_isogeny. left. now left.
  - intros h0 r [[[A|[]]|A] _]; [left; congruence|right; exact A].
Qed.

(** ** Values, whatever pointers coincide *)
Theorem C73_field_methods :
  forall (X : Oracles) (GO : Grp) (h : heap) (r a b : ptr) (w x y : Fp) (c : bool),
  field_at h r w -> field_at h a x -> field_at h b y ->
  computes [r] h (f_assign r a) (fun h' p v => p = r /\ field_at h' r v) (Ok x) /\
  computes [r] h (f_add r a b) (fun h' p v => p = r /\ field_at h' r v) (Ok (fadd x y)) /\
  computes [r] h (f_sub r a b) (fun h' p v => p = r /\ field_at h' r v) (Ok (fsub x y)) /\
  computes [r] h (f_mul r a b) (fun h' p v => p = r /\ field_at h' r v) (Ok (fmul x y)) /\
  computes [r] h (f_square r a) (fun h' p v => p = r /\ field_at h' r v) (Ok (fmul x x)) /\
  computes [r] h (f_cassign r a c) (fun h' p v => p = r /\ field_at h' r v) (Ok (if c then x else w)) /\
  computes [r] h (f_invert r a) (fun h' p v => p = r /\ field_at h' r v) (Ok (finv x)) /\
  computes [r] h (f_negate r a) (fun h' p v => p = r /\ field_at h' r v) (Ok (fneg x)) /\
  computes [r] h (f_progenitor r a) (fun h' p v => p = r /\ field_at h' r v) (Ok (fe_progenitor x)) /\
  computes [r] h (f_sqrt r a) (fun h' p v => fst p = r /\ field_at h' r (fst v) /\ snd p = snd v) (Ok (fe_sqrt x)) /\
  computes [] h (f_clone a) (fun h' p v => new_field h h' p v) (Ok x).
Proof.
  intros X GO h r a b w x y c Hr Ha Hb. conj.
  - eapply computes_ref; [eapply f_assign_ok; eassumption|auto].
  - eapply computes_ref; [eapply f_add_ok; eassumption|auto].
  - eapply computes_ref; [eapply f_sub_ok; eassumption|auto].
  - eapply computes_ref; [eapply f_mul_ok; eassumption|auto].
  - eapply computes_ref; [eapply f_square_ok; eassumption|auto].
  - eapply computes_ref; [eapply f_cassign_ok; eassumption|auto].
  - eapply computes_ref; [eapply f_invert_ok; eassumption|auto].
  - eapply computes_ref; [eapply f_negate_ok; eassumption|auto].
  - eapply computes_ref; [eapply f_progenitor_ok; eassumption|auto].
  - eapply computes_ref; [eapply f_sqrt_ok; eassumption|]. intros h' p v [[A B] C]. auto.
  - eapply computes_ref; [eapply f_clone_ok; eassumption|auto].
Qed.

Theorem C73_hash_to_curve :
  forall (X : Oracles) (GO : Grp) (h : heap) (kc : nat -> ptr) (u v : ptr) (x y : Fp) (choice : bool) (n : nat) (input dst : bytes),
  field_at h u x -> field_at h v y -> constants_at h kc ->
  computes [] h (h_cmov u v choice) (fun h' p w => new_field h h' p w) (Ok (if choice then y else x)) /\
  computes [] h (h_sqrt_ratio u v) (fun h' a b => new_field h h' (fst a) (fst b) /\ snd a = snd b) (sqrt_ratio x y) /\
  computes [] h (h_sswu u)
    (fun h' a b => new_field h h' (fst a) (fst b) /\ new_field h h' (snd a) (snd b) /\ fst a <> snd a) (sswu x) /\
  computes [v] h (h_sswu_isogeny kc u v)
    (fun h' a b => new_field h h' (fst a) (fst b) /\ snd a = v /\ field_at h' v (snd b)) (Ok (sswu_isogeny x y)) /\
  computes [] h (h_map_to_curve kc u) (fun _ a b => a = b) (map_to_curve x) /\
  computes [] h (h_hash_to_field n input dst)
    (fun h' ps vs => Forall2 (field_at h') ps vs /\ Forall (fresh h) ps /\ NoDup ps) (hash_to_field n input dst) /\
  computes [] h (h_hash_to_curve_ro kc input dst) (fun _ a b => a = b) (hash_to_curve_ro input dst).
Proof.
  intros X GO h kc u v x y c n input dst Hu Hv C. conj.
  - eapply computes_ref; [eapply h_cmov_ok; eassumption|auto].
  - eapply computes_ref; [eapply h_sqrt_ratio_ok; eassumption|auto].
  - eapply computes_ref; [eapply h_sswu_ok; eassumption|auto].
  - eapply computes_ref; [eapply h_sswu_isogeny_ok; eassumption|auto].
  - eapply computes_ref; [eapply h_map_to_curve_ok; eassumption|auto].
  - eapply computes_ref; [eapply h_hash_to_field_ok; eassumption|auto].
  - eapply computes_ref; [eapply h_hash_to_curve_ro_ok; eassumption|auto].
Qed.

(** the global constants survive any number of calls, so that the outcome of a
    call does not depend on the calls before it *)
Fixpoint calls {X : Oracles} {GO : Grp} (kc : nat -> ptr) (l : list (bytes * bytes)) (h : heap) : heap :=
  match l with [] => h | (i, d) :: l => calls kc l (fst (h_hash_to_curve_ro kc i d h)) end.
Theorem C73_calls_do_not_interfere :
  forall (X : Oracles) (GO : Grp) (kc : nat -> ptr) (l : list (bytes * bytes)) (h : heap) (input dst : bytes),
  constants_at h kc ->
  constants_at (calls kc l h) kc /\
  computes [] (calls kc l h) (h_hash_to_curve_ro kc input dst) (fun _ a b => a = b) (hash_to_curve_ro input dst).
Proof.
  intros X GO kc l h i d C. assert (C' : constants_at (calls kc l h) kc).
  { revert h C. induction l as [|[i' d'] l IH]; intros h C; simpl; [exact C|]. apply IH.
    destruct (h_hash_to_curve_ro_ok kc i' d' h C) as [E _]. now apply (constants_ext h). }
  split; [exact C'|]. eapply computes_ref; [apply h_hash_to_curve_ro_ok; exact C'|auto].
Qed.

(** ** The isogeny does overwrite its argument *)
#[local] Existing Instance Toy.toyX.
#[local] Existing Instance Toy.toyG.
(** cells 0-12 the constants, 13 a field element x = 0, 14 a field element y = 1 *)
Definition ex_heap : heap :=
  map VF [k256c0; k256c1; k256c2; k256c3; k256c4; k256c5; k256c6; k256c7; k256c8; k256c9; k256c10; k256c11; k256c12; fzero; fone].
Example C73_ex_memory : field_at ex_heap 13%nat fzero /\ field_at ex_heap 14%nat fone /\ constants_at ex_heap (fun i => i).
Proof. conj; try reflexivity. unfold constants_at. cbn [seq]. repeat constructor. Qed.

Lemma x3c_zero a b c d : x3c1_x2c2_xc3_c4 fzero a b c d = d.
Proof. unfold x3c1_x2c2_xc3_c4. ring. Qed.
Lemma x2_zero a b : x2_xc1_c2 fzero a b = b.
Proof. unfold x2_xc1_c2. ring. Qed.
Lemma x3_zero a b c : x3_x2c1_xc2_c3 fzero a b c = c.
Proof. unfold x3_x2c1_xc2_c3. ring. Qed.
Lemma isogeny_at_zero y : snd (sswu_isogeny fzero y) = fmul y (fmul k256c9 (fmul (finv (fmul k256c5 k256c12)) k256c5)).
Proof. unfold sswu_isogeny. cbv zeta. cbn [snd]. now rewrite x3c_zero, x2_zero, x3_zero. Qed.
Lemma scaled_gen (a b c : Fp) : fmul b c <> fzero -> fmul c (fmul a (fmul (finv (fmul b c)) b)) = a.
Proof.
  intros N. pose proof (finv_l p_prime _ N) as I. generalize dependent (finv (fmul b c)). intros i I.
  transitivity (fmul a (fmul i (fmul b c))); [ring|]. rewrite I. ring.
Qed.
Lemma scaled : fmul k256c12 (fmul k256c9 (fmul (finv (fmul k256c5 k256c12)) k256c5)) = k256c9.
Proof. apply scaled_gen, feqb_neq. vm_compute. reflexivity. Qed.
Lemma c9_c12 : k256c9 <> k256c12.
Proof. apply feqb_neq. vm_compute. reflexivity. Qed.
Lemma one_scaled (c z : Fp) : fmul fone z = fone -> fmul c z = c.
Proof. intros E. transitivity (fmul c (fmul fone z)); [ring|]. rewrite E. ring. Qed.
Lemma f2_cons {A B} (R : A -> B -> Prop) a b l m : Forall2 R (a :: l) (b :: m) -> R a b /\ Forall2 R l m.
Proof. intros F. now inversion F. Qed.
Lemma cell_inj {X : Oracles} {GO : Grp} (v w : Fp) : Some (VF v) = Some (VF w) -> v = w.
Proof. intros E. now injection E. Qed.

Theorem C73_isogeny_keeps_its_arguments_refuted :
  ~ (forall (h : heap) (kc : nat -> ptr) (x y : ptr) (vx vy : Fp),
     field_at h x vx -> field_at h y vy -> constants_at h kc -> unchanged h (fst (h_sswu_isogeny kc x y h))).
Proof.
  intros A. destruct C73_ex_memory as (Hx & Hy & C). specialize (A _ _ _ _ _ _ Hx Hy C).
  destruct (h_sswu_isogeny_ok _ _ _ _ _ _ Hx Hy C) as [_ Q].
  destruct (snd (h_sswu_isogeny (fun i => i) 13%nat 14%nat ex_heap)) as [r| | |]; try contradiction.
  destruct Q as [_ [_ Q]]. specialize (A 14%nat ltac:(simpl; lia) ltac:(simpl; tauto)). unfold get in Q. rewrite Q in A.
  unfold field_at in Hy. rewrite Hy in A. apply cell_inj in A. rewrite isogeny_at_zero in A.
  apply one_scaled with (c := k256c12) in A. rewrite scaled in A. now apply c9_c12.
Qed.
(** called with a global constant as y it would change that constant; MapToCurve
    calls it with a new cell *)
Theorem C73_isogeny_keeps_constants_refuted :
  ~ (forall (h : heap) (kc : nat -> ptr) (x y : ptr) (vx vy : Fp),
     field_at h x vx -> field_at h y vy -> constants_at h kc -> constants_at (fst (h_sswu_isogeny kc x y h)) kc).
Proof.
  intros A. destruct C73_ex_memory as (Hx & _ & C). assert (Hy : field_at ex_heap 12%nat k256c12) by reflexivity.
  specialize (A _ _ _ _ _ _ Hx Hy C).
  destruct (h_sswu_isogeny_ok _ _ _ _ _ _ Hx Hy C) as [_ Q].
  destruct (snd (h_sswu_isogeny (fun i => i) 13%nat 12%nat ex_heap)) as [r| | |]; try contradiction.
  destruct Q as [_ [_ Q]]. unfold constants_at in A. cbn [seq] in A. do 12 (apply f2_cons in A as [_ A]).
  apply f2_cons in A as [A _]. unfold field_at in A. unfold get in Q. rewrite Q in A. apply cell_inj in A.
  rewrite isogeny_at_zero, scaled in A. now apply c9_c12.
Qed.

Print Assumptions C73_field_methods_write_only_the_receiver.
Print Assumptions C73_hash_to_curve_changes_nothing.
Print Assumptions C73_isogeny_writes_only_y.
Print Assumptions C73_field_methods.
Print Assumptions C73_hash_to_curve.
Print Assumptions C73_calls_do_not_interfere.
Print Assumptions C73_isogeny_keeps_its_arguments_refuted.
Print Assumptions C73_isogeny_keeps_constants_refuted.
