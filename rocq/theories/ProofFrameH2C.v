(** Hash-to-curve with explicit field element cells: which cells are written. *)
From Coq Require Import ZArith Lia Bool String List.
From Verif Require Import Base BaseFacts Zmod Fields ModelScalar ModelXmd ModelRo ModelPoly ModelGroup ModelCommit ModelZk ModelMega
  ModelDealing ModelKey ModelSign ModelSecp ModelH2C ModelHeap ModelHeapSign ModelHeapH2C SpecHeap SpecHeapH2C ProofHeap ProofFrame.
Import ListNotations.
Open Scope Z_scope.

Section FrameH2C.
Context {X : Oracles} {GO : Grp} (ws : list ptr) (h0 : heap).
Notation frame := (frame ws h0).
Notation okp := (okp ws h0).
Lemma fr_load_f p : frame (load_f p) (fun _ => True).
Proof. intros h E. unfold load_f. destruct (get h p) as [[]|]; split; auto. Qed.
Lemma fr_store_f p v : okp p -> frame (store_f p v) okp.
Proof.
  intros O h E. unfold store_f. destruct (get h p) as [[]|]; simpl; split; try exact E; try discriminate;
    [now apply okp_ext|]. now intros a [= <-].
Qed.
Ltac f1 :=
  match goal with
  | |- ProofFrame.frame _ _ (hret _) _ => apply fr_ret
  | |- ProofFrame.frame _ _ herr _ => apply fr_err
  | |- ProofFrame.frame _ _ hpanic _ => apply fr_panic
  | |- ProofFrame.frame _ _ (hlift _) _ => apply fr_lift
  | |- ProofFrame.frame _ _ (load_f _) _ => apply fr_load_f
  | |- ProofFrame.frame _ _ (store_f _ _) _ => apply fr_store_f
  | |- ProofFrame.frame _ _ (if ?b then _ else _) _ => destruct b
  end.
Create HintDb frf discriminated.
Ltac bf := eapply fr_bind; [first [solve [eauto 3 with frf] | f1; assumption]|intros ? ?].
Ltac gf := repeat first [assumption | exact I | bf | f1 | solve [eauto 3 with frf]].
Lemma fr_f_new v : frame (f_new v) okp. Proof. apply fr_alloc. Qed.
Hint Resolve fr_load_f fr_store_f fr_f_new : frf.
Lemma fr_f_curve a : frame (f_curve a) (fun _ => True). Proof. unfold f_curve. gf. Qed.
Lemma fr_f_assign r a : okp r -> frame (f_assign r a) okp. Proof. intros. unfold f_assign. gf. Qed.
Lemma fr_f_add r a b : okp r -> frame (f_add r a b) okp. Proof. intros. unfold f_add. gf. Qed.
Lemma fr_f_sub r a b : okp r -> frame (f_sub r a b) okp. Proof. intros. unfold f_sub. gf. Qed.
Lemma fr_f_mul r a b : okp r -> frame (f_mul r a b) okp. Proof. intros. unfold f_mul. gf. Qed.
Lemma fr_f_square r a : okp r -> frame (f_square r a) okp. Proof. intros. unfold f_square. gf. Qed.
Lemma fr_f_equal a b : frame (f_equal a b) (fun _ => True). Proof. unfold f_equal. gf. Qed.
Lemma fr_f_cassign r a c : okp r -> frame (f_cassign r a c) okp. Proof. intros. unfold f_cassign. gf. Qed.
Lemma fr_f_invert r a : okp r -> frame (f_invert r a) okp. Proof. intros. unfold f_invert. gf. Qed.
Lemma fr_f_negate r a : okp r -> frame (f_negate r a) okp. Proof. intros. unfold f_negate. gf. Qed.
Lemma fr_f_sqrt r a : okp r -> frame (f_sqrt r a) (fun x => okp (fst x)). Proof. intros. unfold f_sqrt. gf. Qed.
Lemma fr_f_progenitor r a : okp r -> frame (f_progenitor r a) okp. Proof. intros. unfold f_progenitor. gf. Qed.
Lemma fr_f_is_zero a : frame (f_is_zero a) (fun _ => True). Proof. unfold f_is_zero. gf. Qed.
Lemma fr_f_sign a : frame (f_sign a) (fun _ => True). Proof. unfold f_sign. gf. Qed.
Hint Resolve fr_f_curve fr_f_assign fr_f_add fr_f_sub fr_f_mul fr_f_square fr_f_equal fr_f_cassign fr_f_invert fr_f_negate
  fr_f_sqrt fr_f_progenitor fr_f_is_zero fr_f_sign : frf.
Lemma fr_f_clone a : frame (f_clone a) okp. Proof. unfold f_clone. gf. Qed.
Lemma fr_h_cmov a b c : frame (h_cmov a b c) okp. Proof. unfold h_cmov. gf. Qed.
Hint Resolve fr_f_clone fr_h_cmov : frf.
Lemma fr_h_sqrt_ratio u v : frame (h_sqrt_ratio u v) (fun r => okp (fst r)).
Proof. unfold h_sqrt_ratio. gf. Qed.
Hint Resolve fr_h_sqrt_ratio : frf.
Lemma fr_h_sswu u : frame (h_sswu u) (fun r => okp (fst r) /\ okp (snd r)).
Proof. unfold h_sswu. gf. Qed.
Lemma fr_h_x2 x a b : frame (h_x2_xc1_c2 x a b) okp. Proof. unfold h_x2_xc1_c2. gf. Qed.
Hint Resolve fr_h_sswu fr_h_x2 : frf.
Lemma fr_h_x3 x a b c : frame (h_x3_x2c1_xc2_c3 x a b c) okp. Proof. unfold h_x3_x2c1_xc2_c3. gf. Qed.
Lemma fr_h_x3c x a b c d : frame (h_x3c1_x2c2_xc3_c4 x a b c d) okp. Proof. unfold h_x3c1_x2c2_xc3_c4. gf. Qed.
Hint Resolve fr_h_x3 fr_h_x3c : frf.
Lemma fr_h_sswu_isogeny kc x y : okp y -> frame (h_sswu_isogeny kc x y) (fun r => okp (fst r) /\ okp (snd r)).
Proof. intros. unfold h_sswu_isogeny. gf. Qed.
Lemma fr_h_map_to_curve kc u : frame (h_map_to_curve kc u) (fun _ => True).
Proof.
  unfold h_map_to_curve. eapply fr_bind; [apply fr_h_sswu|]. intros r [O1 O2]. bf.
  eapply fr_bind; [now apply fr_h_sswu_isogeny|]. intros. gf.
Qed.
Lemma fr_h_hash_to_field n i d : frame (h_hash_to_field n i d) (Forall okp).
Proof. unfold h_hash_to_field. eapply fr_bind; [apply fr_lift|]. intros. apply fr_map. intros. apply fr_f_new. Qed.
Lemma fr_h_hash_to_curve_ro kc i d : frame (h_hash_to_curve_ro kc i d) (fun _ => True).
Proof.
  unfold h_hash_to_curve_ro. eapply fr_bind; [apply fr_h_hash_to_field|]. intros [|u0 [|u1 u]] _; gf.
  eapply fr_bind; [apply fr_h_map_to_curve|]. intros q0 _. eapply fr_bind; [apply fr_h_map_to_curve|]. intros q1 _.
  destruct q0, q1; gf.
Qed.
End FrameH2C.

