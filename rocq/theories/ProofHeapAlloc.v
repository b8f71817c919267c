(** The cells of new proofs, ciphertexts and dealings are distinct. *)
From Coq Require Import ZArith Lia Bool String List Permutation.
From Verif Require Import Base BaseFacts Zmod Fields ModelScalar ModelXmd ModelRo ModelPoly ModelGroup ModelCommit ModelZk ModelMega
  ModelDealing ModelComplaint ModelKey ModelSign ModelHeap ModelHeapSign ModelHeapDeal SpecHeap SpecHeapDeal ProofHeap ProofFrame ProofFrameDeal.
Import ListNotations.
Open Scope Z_scope.

Section Alloc.
Context {X : Oracles} {GO : Grp}.
Definition own (L : list ptr) (h : heap) : Prop := NoDup L /\ Forall (fun p => (p < List.length h)%nat) L.
(** from a memory with the distinct cells [L] to one with the distinct cells [Q a] *)
Definition tri {A} (L : list ptr) (m : M A) (Q : A -> list ptr) : Prop :=
  forall h, own L h -> forall a, snd (m h) = Ok a -> own (Q a) (fst (m h)).
Definition valid (m : M ptr) : Prop := forall h a, snd (m h) = Ok a -> (a < List.length (fst (m h)))%nat.

Lemma own_perm L L' h : Permutation L L' -> own L h -> own L' h.
Proof.
  intros P [N F]. split; [eapply Permutation_NoDup; eassumption|]. rewrite Forall_forall in *. intros x I. apply F.
  eapply Permutation_in; [apply Permutation_sym; exact P|exact I].
Qed.
Lemma own_tl a L h : own (a :: L) h -> own L h.
Proof. intros [N F]. inversion N; inversion F; subst. now split. Qed.
Lemma own_mono L h h' : (List.length h <= List.length h')%nat -> own L h -> own L h'.
Proof. intros E [N F]. split; [exact N|]. eapply Forall_impl; [|exact F]. simpl. lia. Qed.

Lemma tri_bind {A B} L (m : M A) (k : A -> M B) Q R : tri L m Q -> (forall a, tri (Q a) (k a) R) -> tri L (hbind m k) R.
Proof.
  intros H K h O b. unfold hbind. specialize (H h O). destruct (m h) as [h1 [a| | |]]; simpl in *; try discriminate.
  intros E. apply (K a h1 (H a eq_refl) b E).
Qed.
Lemma tri_ret {A} (a : A) Q : tri (Q a) (hret a) Q.
Proof. intros h O b [= <-]. exact O. Qed.
Lemma tri_ret' {A} L (a : A) Q : Permutation L (Q a) -> tri L (hret a) Q.
Proof. intros P h O b [= <-]. eapply own_perm; eassumption. Qed.
Lemma tri_err {A} L (Q : A -> list ptr) : tri L herr Q.
Proof. intros h O b [=]. Qed.
Lemma tri_panic {A} L (Q : A -> list ptr) : tri L hpanic Q.
Proof. intros h O b [=]. Qed.
Lemma tri_keep {A} L (m : M A) P : (forall h, frame [] h m (P h)) -> tri L m (fun _ => L).
Proof. intros F h O a _. destruct (F h h (ext_refl [] h)) as [[_ E] _]. eapply own_mono; eassumption. Qed.
Lemma tri_lift {A} L (r : res A) : tri L (hlift r) (fun _ => L).
Proof. intros h O a _. exact O. Qed.
Lemma tri_one L (m : M ptr) : (forall h, frame [] h m (okp [] h)) -> valid m -> tri L m (fun a => a :: L).
Proof.
  intros F V h O a E. destruct (F h h (ext_refl [] h)) as [[_ E1] Q]. specialize (Q a E). specialize (V h a E).
  destruct Q as [[]|Q]. destruct O as [N FA]. split; constructor; auto.
  - intros I. rewrite Forall_forall in FA. specialize (FA a I). simpl in FA. lia.
  - eapply Forall_impl; [|exact FA]. simpl. lia.
Qed.
Lemma upd_len h p c : List.length (upd h p c) = List.length h.
Proof. revert p. induction h as [|d h IH]; intros [|p]; simpl; auto. Qed.
Lemma valid_bind {A} (m : M A) (k : A -> M ptr) : (forall a, valid (k a)) -> valid (hbind m k).
Proof. intros K h b. unfold hbind. destruct (m h) as [h1 [a| | |]]; simpl; try discriminate. apply K. Qed.
Lemma valid_alloc c : valid (alloc c).
Proof. intros h a [= <-]. simpl. rewrite app_length. simpl. lia. Qed.
Lemma valid_store_s p v : valid (store_s p v).
Proof.
  intros h a. unfold store_s. destruct (get h p) as [[]|] eqn:E; simpl; try discriminate. intros [= <-]. rewrite upd_len.
  apply nth_error_Some. unfold get in E. congruence.
Qed.
Lemma valid_store_p p v : valid (store_p p v).
Proof.
  intros h a. unfold store_p. destruct (get h p) as [[]|] eqn:E; simpl; try discriminate. intros [= <-]. rewrite upd_len.
  apply nth_error_Some. unfold get in E. congruence.
Qed.
(** an operation that ends by storing in its receiver *)
Definition stores (r : ptr) (m : M ptr) : Prop := forall h a, snd (m h) = Ok a -> a = r /\ List.length (fst (m h)) = List.length h.
Lemma stores_load_s r p (k : Fq -> M ptr) : (forall v, stores r (k v)) -> stores r (hbind (load_s p) k).
Proof. intros K h a. unfold hbind, load_s. destruct (get h p) as [[]|]; simpl; try discriminate. apply K. Qed.
Lemma stores_store_s r v : stores r (store_s r v).
Proof. intros h a. unfold store_s. destruct (get h r) as [[]|]; simpl; try discriminate. intros [= <-]. now rewrite upd_len. Qed.
Lemma stores_s_add r a b : stores r (s_add r a b).
Proof. unfold s_add. apply stores_load_s; intros ?. apply stores_load_s; intros ?. apply stores_store_s. Qed.
Lemma stores_s_sub r a b : stores r (s_sub r a b).
Proof. unfold s_sub. apply stores_load_s; intros ?. apply stores_load_s; intros ?. apply stores_store_s. Qed.
Lemma stores_s_mul r a b : stores r (s_mul r a b).
Proof. unfold s_mul. apply stores_load_s; intros ?. apply stores_load_s; intros ?. apply stores_store_s. Qed.
Lemma tri_stores_bind {B} L r m (k : ptr -> M B) R : stores r m -> tri L (k r) R -> tri L (hbind m k) R.
Proof.
  intros S K h O b. unfold hbind. specialize (S h). destruct (m h) as [h1 [a| | |]]; simpl in *; try discriminate.
  destruct (S a eq_refl) as [-> E]. apply K. eapply own_mono; [|exact O]. lia.
Qed.
Lemma tri_stores L r m : stores r m -> tri (r :: L) m (fun a => a :: L).
Proof. intros S h O a E. destruct (S h a E) as [-> E']. eapply own_mono; [|exact O]. lia. Qed.
Lemma tri_weak {A} L (m : M A) Q R : tri L m Q -> (forall a, Permutation (Q a) (R a)) -> tri L m R.
Proof. intros T P h O a E. eapply own_perm; [apply P|now apply T]. Qed.
Lemma tri_pre {A} L L' (m : M A) Q : Permutation L L' -> tri L' m Q -> tri L m Q.
Proof. intros P T h O. apply T. eapply own_perm; eassumption. Qed.
Lemma tri_drop {A} a L (m : M A) Q : tri L m Q -> tri (a :: L) m Q.
Proof. intros T h O. apply T. eapply own_tl; eassumption. Qed.
Lemma tri_hmap {A B} (f : A -> M B) (C : B -> list ptr) : (forall a L, tri L (f a) (fun b => C b ++ L)) ->
  forall l L, tri L (hmap f l) (fun bs => flat_map C bs ++ L).
Proof.
  intros F. induction l as [|a l IH]; intros L; simpl; [apply tri_ret'; reflexivity|].
  eapply tri_bind; [apply F|intros b]. eapply tri_bind; [apply IH|intros bs]. apply tri_ret'. simpl.
  rewrite app_assoc. apply Permutation_app_tail, Permutation_app_comm.
Qed.
Lemma flat_one (l : list ptr) : flat_map (fun b => [b]) l = l.
Proof. induction l; simpl; congruence. Qed.
Lemma tri_hmap1 {A} (f : A -> M ptr) : (forall a L, tri L (f a) (fun b => b :: L)) -> forall l L, tri L (hmap f l) (fun bs => bs ++ L).
Proof. intros F l L. eapply tri_weak; [apply (tri_hmap f (fun b => [b])); exact F|]. intros bs. simpl. now rewrite flat_one. Qed.
Lemma tri_hor_panic {A} L (m : M A) Q : tri L m Q -> tri L (hor_panic m) Q.
Proof. intros T h O a. unfold hor_panic. specialize (T h O). destruct (m h) as [h1 []]; simpl in *; try discriminate. apply T. Qed.
End Alloc.

Ltac vd := repeat first [apply valid_alloc | apply valid_store_s | apply valid_store_p | apply valid_bind; intros ?].
Ltac one L := eapply tri_bind; [apply tri_one; [intros; apply L|vd]|intros ?].
Ltac kp L := eapply tri_bind; [eapply tri_keep; intros; apply L|intros ?].
Ltac lf := eapply tri_bind; [apply tri_lift|intros ?].

Section Alloc2.
Context {X : Oracles} {GO : Grp}.
Lemma tri_dlog_create L seed x g h ad : tri L (h_dlog_create seed x g h ad) (fun p => dlog_cells p ++ L).
Proof.
  unfold h_dlog_create. kp fr_p_clone_mul. kp fr_p_clone_mul. lf. kp fr_s_random. kp fr_p_clone_mul. kp fr_p_clone_mul.
  one fr_h_dlog_challenge. one fr_s_clone. eapply tri_stores_bind; [apply stores_s_mul|]. eapply tri_stores_bind; [apply stores_s_add|].
  apply tri_ret'. simpl. apply perm_swap.
Qed.
Lemma tri_eqo_create L seed s m ad : tri L (h_eqo_create seed s m ad) (fun p => eqo_cells p ++ L).
Proof.
  unfold h_eqo_create. kp fr_p_new. kp fr_p_new. kp fr_p_pedersen. kp fr_p_mul_by_g. lf. kp fr_s_random. kp fr_p_clone_mul.
  one fr_h_eqo_challenge. one fr_s_clone. eapply tri_stores_bind; [apply stores_s_mul|]. eapply tri_stores_bind; [apply stores_s_add|].
  apply tri_ret'. simpl. apply perm_swap.
Qed.
Lemma tri_prod_create L seed l r rm p pm ad : tri L (h_prod_create seed l r rm p pm ad) (fun a => prod_cells a ++ L).
Proof.
  unfold h_prod_create. kp fr_p_new. kp fr_p_new. kp fr_p_clone_mul. kp fr_p_mul_points. kp fr_p_mul_points. lf. kp fr_s_random.
  kp fr_p_clone_mul. kp fr_s_random. kp fr_p_mul_points. one fr_h_prod_challenge.
  one fr_s_clone. eapply tri_stores_bind; [apply stores_s_mul|]. eapply tri_stores_bind; [apply stores_s_add|].
  one fr_s_clone. one fr_s_clone. eapply tri_stores_bind; [apply stores_s_mul|]. apply tri_drop.
  eapply tri_stores_bind; [apply stores_s_sub|]. eapply tri_stores_bind; [apply stores_s_mul|]. eapply tri_stores_bind; [apply stores_s_add|].
  apply tri_ret'. simpl. etransitivity; [apply (Permutation_app_comm [_; _] (_ :: L))|]. simpl. apply perm_skip.
  etransitivity; [apply Permutation_app_comm|]. simpl. apply perm_swap.
Qed.
Lemma tri_eph_and_pop L t seed ad dealer : tri L (h_eph_and_pop t seed ad dealer) (fun e => he_v e :: he_pop e :: dlog_cells (he_proof e) ++ L).
Proof.
  unfold h_eph_and_pop. lf. lf. kp fr_s_new. one fr_p_mul_by_g. kp fr_h_pop_base. one fr_p_clone_mul. lf. kp fr_p_new.
  eapply tri_bind; [apply tri_dlog_create|intros pf]. apply tri_ret'. cbn [he_v he_pop he_proof].
  etransitivity; [apply Permutation_sym, Permutation_middle|].
  etransitivity; [apply perm_skip, Permutation_sym, Permutation_middle|]. apply perm_swap.
Qed.
Lemma nth_or_panic_nth {A} (l : list A) i a : nth_or_panic l i = Ok a -> nth_error l i = Some a.
Proof. unfold nth_or_panic. destruct (nth_error l i); congruence. Qed.
Lemma tri_mega_hash L t dealer rc ad pk eph ss : tri L (h_mega_hash t dealer rc ad pk eph ss) (fun hm => hm ++ L).
Proof.
  unfold h_mega_hash. do 3 kp fr_load_p. lf. apply tri_hmap1. intros ? ?. apply tri_one; [intros; apply fr_s_new|vd].
Qed.
Lemma own_app_r A B h : own (A ++ B) h -> own B h.
Proof. induction A; simpl; auto. intros O. apply IHA. eapply own_tl. exact O. Qed.
Lemma own_nth0 hm L h a : nth_error hm 0 = Some a -> own (hm ++ L) h -> own (a :: L) h.
Proof.
  destruct hm as [|b hm]; simpl; [discriminate|]. intros [= ->] O. apply (own_app_r hm). eapply own_perm; [|exact O].
  simpl. apply Permutation_middle.
Qed.
Lemma own_nth01 hm L h a b : nth_error hm 0 = Some a -> nth_error hm 1 = Some b -> own (hm ++ L) h -> own (a :: b :: L) h.
Proof.
  destruct hm as [|x [|y hm]]; simpl; try discriminate. intros [= ->] [= ->] O. apply (own_app_r hm). eapply own_perm; [|exact O].
  simpl. etransitivity; [apply perm_skip, Permutation_middle|]. apply Permutation_middle.
Qed.
Lemma tri_hnth_bind {A B} L (l : list A) i (k : A -> M B) Q : (forall a, nth_error l i = Some a -> tri L (k a) Q) -> tri L (hbind (hnth l i) k) Q.
Proof.
  intros K h O b. unfold hbind, hnth, hlift. destruct (nth_or_panic l i) as [a| | |] eqn:E; simpl; try discriminate.
  apply K; [now apply nth_or_panic_nth|exact O].
Qed.
Lemma tri_encrypt_single L seed pl rc dealer ad : tri L (h_encrypt_single seed pl rc dealer ad) (fun c => ciphertext_cells c ++ L).
Proof.
  unfold h_encrypt_single. lf. eapply tri_bind; [apply tri_eph_and_pop|intros e].
  eapply tri_bind; [apply tri_hmap1|intros cts].
  - intros ix L'. kp fr_p_clone_mul. eapply tri_bind; [apply tri_mega_hash|intros hm]. apply tri_hnth_bind. intros h0 N.
    intros h O. apply (own_nth0 _ _ _ _ N) in O. revert h O. apply tri_stores, stores_s_add.
  - apply tri_ret'. cbn [ciphertext_cells]. etransitivity; [apply Permutation_app_comm|]. simpl. do 4 apply perm_skip.
    apply Permutation_app_comm.
Qed.
Lemma flat_pairs (l : list (ptr * ptr)) : Permutation (flat_map (fun c => [fst c; snd c]) l) (map fst l ++ map snd l).
Proof.
  induction l as [|[a b] l IH]; simpl; [constructor|]. apply perm_skip. etransitivity; [apply perm_skip; exact IH|]. apply Permutation_middle.
Qed.
Lemma tri_encrypt_pair L seed pl rc dealer ad : tri L (h_encrypt_pair seed pl rc dealer ad) (fun c => ciphertext_cells c ++ L).
Proof.
  unfold h_encrypt_pair. lf. eapply tri_bind; [apply tri_eph_and_pop|intros e].
  eapply tri_bind; [apply tri_hmap with (C := fun c => [fst c; snd c])|intros cts].
  - intros ix L'. kp fr_p_clone_mul. eapply tri_bind; [apply tri_mega_hash|intros hm]. apply tri_hnth_bind. intros h0 N.
    apply tri_hnth_bind. intros h1 N1. intros h O. apply (own_nth01 _ _ _ _ _ N N1) in O. revert h O.
    change (tri (h0 :: h1 :: L') (let! c0 := s_add h0 h0 (fst (snd (snd ix))) in let! c1 := s_add h1 h1 (snd (snd (snd ix))) in hret (c0, c1))
      (fun b => [fst b; snd b] ++ L')).
    eapply tri_stores_bind; [apply stores_s_add|]. eapply tri_stores_bind; [apply stores_s_add|]. apply tri_ret'. reflexivity.
  - apply tri_ret'. cbn [ciphertext_cells]. etransitivity; [apply Permutation_app_comm|]. simpl. do 4 apply perm_skip.
    etransitivity; [apply Permutation_app_comm|]. rewrite flat_pairs. reflexivity.
Qed.
Lemma tri_simple_create L q n : tri L (hc_simple_create q n) (fun c => commitment_cells c ++ L).
Proof.
  unfold hc_simple_create. kp fr_q_non_zero. destruct (_ <? _); [apply tri_err|].
  eapply tri_bind; [apply tri_hmap1|intros pts; apply tri_ret'; reflexivity]. intros i L'. kp fr_q_coeff. apply tri_one; [intros; apply fr_p_mul_by_g|vd].
Qed.
Lemma tri_pedersen_create L q1 q2 n : tri L (hc_pedersen_create q1 q2 n) (fun c => commitment_cells c ++ L).
Proof.
  unfold hc_pedersen_create. kp fr_q_non_zero. destruct (_ <? _); [apply tri_err|]. kp fr_q_non_zero. destruct (_ <? _); [apply tri_err|].
  eapply tri_bind; [apply tri_hmap1|intros pts; apply tri_ret'; reflexivity]. intros i L'. kp fr_q_coeff. kp fr_q_coeff.
  apply tri_one; [intros; apply fr_p_pedersen|vd].
Qed.
Lemma tri_ec_single L po num rc dealer ad seed :
  tri L (h_encrypt_and_commit_single po num rc dealer ad seed) (fun e => ciphertext_cells (fst e) ++ commitment_cells (snd e) ++ L).
Proof.
  unfold h_encrypt_and_commit_single.
  eapply tri_bind; [eapply tri_keep; intros; apply fr_map' with (P := fun _ => True); intros; eapply fr_bind; [apply fr_s_new|intros ? _; eapply fr_true, fr_q_evaluate_at]|intros pl].
  eapply tri_bind; [apply tri_encrypt_single|intros ct]. eapply tri_bind; [apply tri_simple_create|intros cm]. apply tri_ret'. cbn [fst snd].
  rewrite !app_assoc. apply Permutation_app_tail, Permutation_app_comm.
Qed.
Lemma tri_ec_pair L va ma num rc dealer ad seed :
  tri L (h_encrypt_and_commit_pair va ma num rc dealer ad seed) (fun e => ciphertext_cells (fst e) ++ commitment_cells (snd e) ++ L).
Proof.
  unfold h_encrypt_and_commit_pair.
  eapply tri_bind; [eapply tri_keep; intros; apply fr_map' with (P := fun _ => True); intros; eapply fr_bind; [apply fr_s_new|intros ? _];
    eapply fr_bind; [apply fr_q_evaluate_at|intros ? _]; eapply fr_bind; [apply fr_q_evaluate_at|intros ? _]; now apply fr_ret|intros pl].
  eapply tri_bind; [apply tri_encrypt_pair|intros ct]. eapply tri_bind; [apply tri_pedersen_create|intros cm]. apply tri_ret'. cbn [fst snd].
  rewrite !app_assoc. apply Permutation_app_tail, Permutation_app_comm.
Qed.
Lemma tri_new_dealing L sh seed t rc dealer ad : tri L (h_new_dealing sh seed t rc dealer ad) (fun d => dealing_cells d ++ L).
Proof.
  assert (Z0 : forall ct cm, dealing_cells (mkhdealing ct cm HPNone) = ciphertext_cells ct ++ commitment_cells cm).
  { intros. unfold dealing_cells. cbn [hd_ct hd_cm hd_proof zk_cells]. now rewrite app_nil_r. }
  assert (P0 : forall (a b c : list ptr), Permutation (c ++ a ++ b ++ L) ((a ++ b ++ c) ++ L)).
  { intros. rewrite <- !app_assoc. rewrite (app_assoc a b (c ++ L)), (app_assoc a b L). apply Permutation_app_swap_app. }
  unfold h_new_dealing. destruct (_ || _); [apply tri_err|]. lf. lf. lf. destruct sh.
  - kp fr_q_random. kp fr_q_random. eapply tri_bind; [apply tri_ec_pair|intros e]. apply tri_ret'. rewrite Z0, <- app_assoc. reflexivity.
  - kp fr_q_random_with_constant. eapply tri_bind; [apply tri_ec_single|intros e]. apply tri_ret'. rewrite Z0, <- app_assoc. reflexivity.
  - kp fr_q_random_with_constant. eapply tri_bind; [apply tri_ec_single|intros e]. lf. eapply tri_bind; [apply tri_eqo_create|intros pf].
    apply tri_ret'. apply P0.
  - one fr_s_clone. eapply tri_stores_bind; [apply stores_s_mul|]. apply tri_drop. kp fr_s_random. kp fr_q_random_with_constant.
    eapply tri_bind; [eapply tri_keep; intros; apply fr_hor_panic, fr_q_random_with_constant|intros m].
    eapply tri_bind; [apply tri_ec_pair|intros e]. lf. eapply tri_bind; [apply tri_hor_panic, tri_prod_create|intros pf].
    apply tri_ret'. apply P0.
  - apply tri_ret'. reflexivity.
Qed.
Lemma tri_nodup {A} (m : M A) (C : A -> list ptr) : tri [] m (fun a => C a ++ []) -> forall h a, snd (m h) = Ok a -> NoDup (C a).
Proof. intros T h a E. destruct (T h ltac:(split; constructor) a E) as [N _]. now rewrite app_nil_r in N. Qed.
End Alloc2.
