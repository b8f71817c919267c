(** C72: zero-knowledge proofs, encryption, dealings, transcripts, openings and
    complaints with explicit memory. *)
From Coq Require Import ZArith Lia Bool String List.
From Verif Require Import Base BaseFacts Zmod Fields ModelScalar ModelXmd ModelRo ModelPoly ModelGroup ModelCommit ModelZk ModelMega
  ModelDealing ModelComplaint ModelKey ModelSign ModelProtocol ModelHeap ModelHeapSign ModelHeapDeal SpecHeap SpecHeapDeal
  ProofHeap ProofHeapSign ProofFrame ProofFrameDeal ProofHeapZk ProofHeapMega ProofHeapDeal ProofHeapCorrupt ProofHeapAlloc PropHeap.
Import ListNotations.
Open Scope Z_scope.

Section C72.
Context {X : Oracles} {GO : Grp}.
Lemma fr2 h p q : okp [] h p -> okp [] h q -> Forall (fresh h) [p; q].
Proof. intros A B. repeat constructor; now apply okp_fresh. Qed.
Lemma dl_fresh h p : okdl [] h p -> Forall (fresh h) (dlog_cells p).
Proof. intros [A B]. now apply fr2. Qed.
Lemma eo_fresh h p : okeo [] h p -> Forall (fresh h) (eqo_cells p).
Proof. intros [A B]. now apply fr2. Qed.
Lemma pr_fresh h p : okpr [] h p -> Forall (fresh h) (prod_cells p).
Proof. intros (A & B & C). repeat constructor; now apply okp_fresh. Qed.
Lemma ct_fresh h c : okct [] h c -> Forall (fresh h) (ciphertext_cells c).
Proof.
  destruct c as [e p pf ct|e p pf ct|]; simpl; [| |constructor].
  - intros (A & B & C & D). do 2 (constructor; [now apply okp_fresh|]). apply dl_fresh in C. inversion C as [|? ? C1 C2]. inversion C2.
    do 2 (constructor; [assumption|]). now apply fresh_list.
  - intros (A & B & C & D). do 2 (constructor; [now apply okp_fresh|]). apply dl_fresh in C. inversion C as [|? ? C1 C2]. inversion C2.
    do 2 (constructor; [assumption|]). apply Forall_app. split; apply Forall_map; (eapply Forall_impl; [|exact D]); intros ? [U V]; now apply okp_fresh.
Qed.
Lemma cm_fresh h c : okc [] h c -> Forall (fresh h) (commitment_cells c).
Proof. unfold okc, commitment_cells. destruct (hunwrap c); try constructor; apply fresh_list. Qed.
Lemma op_fresh h o : oko [] h o -> Forall (fresh h) (opening_cells o).
Proof. destruct o; simpl; intros A; repeat constructor; apply okp_fresh; tauto. Qed.
Lemma zk_fresh h z : okz [] h z -> Forall (fresh h) (zk_cells z).
Proof. destruct z; simpl; [constructor|apply eo_fresh|apply pr_fresh]. Qed.
Lemma d_fresh h d : okd [] h d -> Forall (fresh h) (dealing_cells d).
Proof. intros (A & B & C). unfold dealing_cells. rewrite !Forall_app. auto using ct_fresh, cm_fresh, zk_fresh. Qed.
Lemma cp_fresh h c : okcp [] h c -> Forall (fresh h) (complaint_cells c).
Proof. intros [A B]. constructor; [now apply okp_fresh|now apply dl_fresh]. Qed.
Lemma nodup_split {A} (l r : list A) x : NoDup (l ++ r) -> In x l -> In x r -> False.
Proof.
  induction l as [|a l IH]; simpl; [tauto|]. intros N [->|I] J; inversion N as [|? ? M N']; subst; [apply M; rewrite in_app_iff; auto|eauto].
Qed.
Lemma nodup_left {A} (l r : list A) : NoDup (l ++ r) -> NoDup l.
Proof.
  induction l as [|a l IH]; simpl; [constructor|]. intros N. inversion N as [|? ? M N']; subst. constructor; [|auto].
  intros I. apply M. rewrite in_app_iff. auto.
Qed.
End C72.
Ltac conj := repeat match goal with |- _ /\ _ => split end.
Ltac fw ok fr fs := eapply wf with (P := ok); [intros; apply fr|intros; now apply fs].
Ltac kw fr := apply frame_writes; intros; apply fr.
Ltac cr t := eapply computes_ref; [t|auto].

(** ** Nothing that existed before is changed; results have cells of their own *)
Theorem C72_proofs_change_nothing :
  forall (X : Oracles) (GO : Grp) (seed ad : bytes) (a b c d e : ptr) (dl : hdlog) (eo : heqo) (pr : hprod),
  writes_only [] (h_dlog_create seed a b c ad) (fun h r => Forall (fresh h) (dlog_cells r)) /\
  writes_only [] (h_dlog_verify dl a b c d ad) (fun _ _ => True) /\
  writes_only [] (h_dlog_clone dl) (fun h r => Forall (fresh h) (dlog_cells r)) /\
  writes_only [] (h_eqo_create seed a b ad) (fun h r => Forall (fresh h) (eqo_cells r)) /\
  writes_only [] (h_eqo_verify eo a b ad) (fun _ _ => True) /\
  writes_only [] (h_eqo_clone eo) (fun h r => Forall (fresh h) (eqo_cells r)) /\
  writes_only [] (h_prod_create seed a b c d e ad) (fun h r => Forall (fresh h) (prod_cells r)) /\
  writes_only [] (h_prod_verify pr a b c ad) (fun _ _ => True).
Proof.
  intros. conj.
  - fw okdl fr_h_dlog_create dl_fresh.
  - kw fr_h_dlog_verify.
  - fw okdl fr_h_dlog_clone dl_fresh.
  - fw okeo fr_h_eqo_create eo_fresh.
  - kw fr_h_eqo_verify.
  - fw okeo fr_h_eqo_clone eo_fresh.
  - fw okpr fr_h_prod_create pr_fresh.
  - kw fr_h_prod_verify.
Qed.
Theorem C72_encryption_changes_nothing :
  forall (X : Oracles) (GO : Grp) (seed ad : bytes) (pl rc ct : list ptr) (pls : list (ptr * ptr)) (dealer recipient n : Z)
    (e p sk pk : ptr) (pf : hdlog) (m : hciphertext) (c : hcommitment),
  writes_only [] (h_encrypt_single seed pl rc dealer ad) (fun h r => Forall (fresh h) (ciphertext_cells r)) /\
  writes_only [] (h_encrypt_pair seed pls rc dealer ad) (fun h r => Forall (fresh h) (ciphertext_cells r)) /\
  writes_only [] (h_single_clone e p pf ct) (fun h r => Forall (fresh h) (ciphertext_cells r)) /\
  writes_only [] (hm_check_validity m n ad dealer) (fun _ _ => True) /\
  writes_only [] (hm_decrypt m ad dealer recipient sk pk) (fun h r => Forall (fresh h) (opening_cells r)) /\
  writes_only [] (hm_decrypt_and_check m c ad dealer recipient sk pk) (fun h r => Forall (fresh h) (opening_cells r)).
Proof.
  intros. conj.
  - fw okct fr_h_encrypt_single ct_fresh.
  - fw okct fr_h_encrypt_pair ct_fresh.
  - fw okct fr_h_single_clone ct_fresh.
  - kw fr_hm_check_validity.
  - fw oko fr_hm_decrypt op_fresh.
  - fw oko fr_hm_decrypt_and_check op_fresh.
Qed.
Theorem C72_dealings_change_nothing :
  forall (X : Oracles) (GO : Grp) (sh : hshares) (seed ad : bytes) (t dealer recipient n : Z) (rc : list ptr) (d : hdealing)
    (op : hoperation) (sk pk : ptr) (ds : list (Z * hdealing)),
  writes_only [] (h_new_dealing sh seed t rc dealer ad) (fun h r => Forall (fresh h) (dealing_cells r)) /\
  writes_only [] (h_publicly_verify d op t dealer n ad) (fun _ _ => True) /\
  writes_only [] (h_private_verify d sk pk ad dealer recipient) (fun _ _ => True) /\
  writes_only [] (h_new_transcript t ds op) (fun h r => Forall (fresh h) (commitment_cells r)).
Proof.
  intros. conj.
  - fw okd fr_h_new_dealing d_fresh.
  - kw fr_h_publicly_verify.
  - kw fr_h_private_verify.
  - fw okc fr_h_new_transcript cm_fresh.
Qed.
Theorem C72_openings_change_nothing :
  forall (X : Oracles) (GO : Grp) (ad : bytes) (receiver : Z) (d : hdealing) (tc : hcommitment) (sk pk : ptr) (ds : list (Z * hdealing))
    (os : list (Z * hopening)) (ixs : list Z) (ps : list hopening) (provided : list (Z * list (Z * hopening))),
  writes_only [] (h_reconstruct_share d os receiver) (fun h r => Forall (fresh h) (opening_cells r)) /\
  writes_only [] (h_combine_openings ixs ps tc receiver) (fun h r => Forall (fresh h) (opening_cells r)) /\
  writes_only [] (h_from_dealings ds tc ad receiver sk pk) (fun h r => Forall (fresh h) (opening_cells r)) /\
  writes_only [] (h_from_dealings_and_openings ds provided tc ad receiver sk pk) (fun h r => Forall (fresh h) (opening_cells r)).
Proof.
  intros. conj.
  - fw oko fr_h_reconstruct_share op_fresh.
  - fw oko fr_h_combine_openings op_fresh.
  - fw oko fr_h_from_dealings op_fresh.
  - fw oko fr_h_from_dealings_and_openings op_fresh.
Qed.
Theorem C72_complaints_change_nothing :
  forall (X : Oracles) (GO : Grp) (seed ad : bytes) (dealer receiver : Z) (d : hdealing) (sk pk : ptr) (ds : list (Z * hdealing)) (c : hcomplaint),
  writes_only [] (h_new_complaint seed d dealer receiver sk pk ad) (fun h r => Forall (fresh h) (complaint_cells r)) /\
  writes_only [] (h_generate_complaints ds ad receiver sk pk seed) (fun h r => Forall (fun e => Forall (fresh h) (complaint_cells (snd e))) r) /\
  writes_only [] (h_complaint_verify c d dealer receiver pk ad) (fun _ _ => True).
Proof.
  intros. conj.
  - fw okcp fr_h_new_complaint cp_fresh.
  - eapply wf with (P := fun ws h => Forall (fun e => okcp ws h (snd e))); [intros; apply fr_h_generate_complaints|].
    intros h0 a F. eapply Forall_impl; [|exact F]. intros x. apply cp_fresh.
  - kw fr_h_complaint_verify.
Qed.
(** No cell of a new proof, ciphertext or dealing is used twice in it. *)
Theorem C72_new_cells_distinct :
  forall (X : Oracles) (GO : Grp) (h : heap) (seed ad : bytes) (a b c d e : ptr) (pl rc : list ptr) (pls : list (ptr * ptr)) (dealer t : Z) (sh : hshares),
  (forall r, snd (h_dlog_create seed a b c ad h) = Ok r -> NoDup (dlog_cells r)) /\
  (forall r, snd (h_eqo_create seed a b ad h) = Ok r -> NoDup (eqo_cells r)) /\
  (forall r, snd (h_prod_create seed a b c d e ad h) = Ok r -> NoDup (prod_cells r)) /\
  (forall r, snd (h_encrypt_single seed pl rc dealer ad h) = Ok r -> NoDup (ciphertext_cells r)) /\
  (forall r, snd (h_encrypt_pair seed pls rc dealer ad h) = Ok r -> NoDup (ciphertext_cells r)) /\
  (forall r, snd (h_new_dealing sh seed t rc dealer ad h) = Ok r -> NoDup (dealing_cells r)).
Proof.
  intros. conj; intros r0 E.
  - exact (tri_nodup _ _ (tri_dlog_create _ _ _ _ _ _) _ _ E).
  - exact (tri_nodup _ _ (tri_eqo_create _ _ _ _ _) _ _ E).
  - exact (tri_nodup _ _ (tri_prod_create _ _ _ _ _ _ _ _) _ _ E).
  - exact (tri_nodup _ _ (tri_encrypt_single _ _ _ _ _ _) _ _ E).
  - exact (tri_nodup _ _ (tri_encrypt_pair _ _ _ _ _ _) _ _ E).
  - exact (tri_nodup _ _ (tri_new_dealing _ _ _ _ _ _ _) _ _ E).
Qed.
(** CorruptDealing writes nothing but the first components of encrypted pairs. *)
Theorem C72_corruption_writes_only_pairs :
  forall (X : Oracles) (GO : Grp) (d : hdealing) (targets : list Z) (seed : bytes),
  writes_only (first_components d) (h_corrupt_dealing d targets seed) (fun _ _ => True).
Proof. intros. apply frame_writes. intros h0. apply fr_h_corrupt_dealing. intros p I. exact I. Qed.

(** ** The memory-level programs compute the functions on values, whatever
    pointers the arguments share *)
Theorem C72_proofs :
  forall (X : Oracles) (GO : Grp) (h : heap) (seed ad : bytes) (x y z u w P Q R S : ptr) xv yv zv uv wv Pv Qv Rv Sv
    (dl : hdlog) (eo : heqo) (pr : hprod) dlv eov prv,
  scalar_at h x xv -> scalar_at h y yv -> scalar_at h z zv -> scalar_at h u uv -> scalar_at h w wv ->
  point_at h P Pv -> point_at h Q Qv -> point_at h R Rv -> point_at h S Sv ->
  dlog_at h dl dlv -> eqo_at h eo eov -> prod_at h pr prv ->
  computes [] h (h_dlog_create seed x P Q ad) dlog_at (dlog_create seed xv Pv Qv ad) /\
  computes [] h (h_dlog_verify dl P Q R S ad) (fun _ _ _ => True) (dlog_verify dlv Pv Qv Rv Sv ad) /\
  computes [] h (h_dlog_clone dl) dlog_at (Ok dlv) /\
  computes [] h (h_eqo_create seed x y ad) eqo_at (eqo_create seed xv yv ad) /\
  computes [] h (h_eqo_verify eo P Q ad) (fun _ _ _ => True) (eqo_verify eov Pv Qv ad) /\
  computes [] h (h_eqo_clone eo) eqo_at (Ok eov) /\
  computes [] h (h_prod_create seed x y z u w ad) prod_at (prod_create seed xv yv zv uv wv ad) /\
  computes [] h (h_prod_verify pr P Q R ad) (fun _ _ _ => True) (prod_verify prv Pv Qv Rv ad) /\
  computes [] h (h_prod_clone pr) prod_at (Ok prv).
Proof.
  intros X GO h seed ad x y z u w P Q R S xv yv zv uv wv Pv Qv Rv Sv dl eo pr dlv eov prv Hx Hy Hz Hu Hw HP HQ HR HS D E F. conj.
  - cr ltac:(apply h_dlog_create_ok; assumption).
  - cr ltac:(apply h_dlog_verify_ok; assumption).
  - cr ltac:(apply h_dlog_clone_ok; assumption).
  - cr ltac:(apply h_eqo_create_ok; assumption).
  - cr ltac:(apply h_eqo_verify_ok; assumption).
  - cr ltac:(apply h_eqo_clone_ok; assumption).
  - cr ltac:(apply h_prod_create_ok; assumption).
  - cr ltac:(apply h_prod_verify_ok; assumption).
  - cr ltac:(apply h_prod_clone_ok; assumption).
Qed.
Theorem C72_encryption :
  forall (X : Oracles) (GO : Grp) (h : heap) (seed ad : bytes) (pl rc : list ptr) (pls : list (ptr * ptr)) plv plsv rcv (dealer recipient n : Z)
    (sk pk : ptr) skv pkv (m : hciphertext) mv (c : hcommitment) cv,
  scalars_at h pl plv -> Forall2 (pair_at h) pls plsv -> points_at h rc rcv -> scalar_at h sk skv -> point_at h pk pkv ->
  ciphertext_at h m mv -> commitment_at h c cv ->
  computes [] h (h_encrypt_single seed pl rc dealer ad) ciphertext_at (encrypt_single seed plv rcv dealer ad) /\
  computes [] h (h_encrypt_pair seed pls rc dealer ad) ciphertext_at (encrypt_pair seed plsv rcv dealer ad) /\
  computes [] h (hm_check_validity m n ad dealer) (fun _ _ _ => True) (m_check_validity mv n ad dealer) /\
  computes [] h (hm_decrypt m ad dealer recipient sk pk) (new_opening h) (m_decrypt mv ad dealer recipient skv pkv) /\
  computes [] h (hm_decrypt_and_check m c ad dealer recipient sk pk) (new_opening h) (m_decrypt_and_check mv cv ad dealer recipient skv pkv) /\
  match m with HMSingle e p pf ct => computes [] h (h_single_clone e p pf ct) ciphertext_at (Ok mv) | _ => True end.
Proof.
  intros X GO h seed ad pl rc pls plv plsv rcv dealer recipient n sk pk skv pkv m mv c cv Sp Sq Sr Ss Pk Cm Cc. conj.
  - cr ltac:(apply h_encrypt_single_ok; assumption).
  - cr ltac:(apply h_encrypt_pair_ok; assumption).
  - cr ltac:(apply hm_check_validity_ok; assumption).
  - cr ltac:(apply hm_decrypt_ok; assumption).
  - cr ltac:(apply hm_decrypt_and_check_ok; assumption).
  - destruct m, mv; try exact I; try contradiction. cr ltac:(apply h_single_clone_ok; assumption).
Qed.
Theorem C72_dealings :
  forall (X : Oracles) (GO : Grp) (h : heap) (sh : hshares) shv (seed ad : bytes) (t dealer recipient n : Z) (rc : list ptr) rcv
    (d : hdealing) v (op : hoperation) opv (sk pk : ptr) skv pkv (ds : list (Z * hdealing)) vs,
  shares_in h sh shv -> points_at h rc rcv -> dealing_at h d v -> operation_at h op opv -> scalar_at h sk skv -> point_at h pk pkv ->
  dealings_at h ds vs ->
  computes [] h (h_new_dealing sh seed t rc dealer ad) dealing_at (new_dealing shv seed t rcv dealer ad) /\
  computes [] h (h_publicly_verify d op t dealer n ad) (fun _ _ _ => True) (publicly_verify v opv t dealer n ad) /\
  computes [] h (h_private_verify d sk pk ad dealer recipient) (fun _ _ _ => True) (private_verify v skv pkv ad dealer recipient) /\
  computes [] h (h_new_transcript t ds op) (fun h' c tr => commitment_at h' c (tr_commitment tr)) (new_transcript t vs opv).
Proof.
  intros X GO h sh shw seed ad t dealer recipient n rc rcv d v op ow sk pk skv pkv ds vs Sh Rc D O Sk Pk Ds. conj.
  - cr ltac:(apply h_new_dealing_ok; assumption).
  - cr ltac:(apply h_publicly_verify_ok; assumption).
  - cr ltac:(apply h_private_verify_ok; assumption).
  - cr ltac:(apply h_new_transcript_ok; assumption).
Qed.
Theorem C72_openings :
  forall (X : Oracles) (GO : Grp) (h : heap) (ad : bytes) (receiver : Z) (d : hdealing) v (tc : hcommitment) tcv (sk pk : ptr) skv pkv
    (ds : list (Z * hdealing)) vs (os : list (Z * hopening)) ov (ixs : list Z) (ps : list hopening) pv
    (provided : list (Z * list (Z * hopening))) prov,
  dealing_at h d v -> commitment_at h tc tcv -> scalar_at h sk skv -> point_at h pk pkv -> dealings_at h ds vs -> openings_at h os ov ->
  Forall2 (opening_at h) ps pv -> Forall2 (entry_at (openings_at h)) provided prov ->
  computes [] h (h_reconstruct_share d os receiver) (new_opening h) (reconstruct_share v ov receiver) /\
  computes [] h (h_combine_openings ixs ps tc receiver) (new_opening h) (combine_openings ixs pv tcv receiver) /\
  computes [] h (h_from_dealings ds tc ad receiver sk pk) (new_opening h) (from_dealings vs tcv ad receiver skv pkv) /\
  computes [] h (h_from_dealings_and_openings ds provided tc ad receiver sk pk) (new_opening h)
    (from_dealings_and_openings vs prov tcv ad receiver skv pkv).
Proof.
  intros X GO h ad receiver d v tc tcv sk pk skv pkv ds vs os ov ixs ps pv provided prov D Tc Sk Pk Ds Os Ps Pr. conj.
  - cr ltac:(apply h_reconstruct_share_ok; assumption).
  - cr ltac:(apply h_combine_openings_ok; assumption).
  - cr ltac:(apply h_from_dealings_ok; assumption).
  - cr ltac:(apply h_from_dealings_and_openings_ok; assumption).
Qed.
Theorem C72_complaints :
  forall (X : Oracles) (GO : Grp) (h : heap) (seed ad : bytes) (dealer receiver : Z) (d : hdealing) v (sk pk : ptr) skv pkv
    (ds : list (Z * hdealing)) vs (c : hcomplaint) cv,
  dealing_at h d v -> scalar_at h sk skv -> point_at h pk pkv -> dealings_at h ds vs -> complaint_at h c cv ->
  computes [] h (h_new_complaint seed d dealer receiver sk pk ad) complaint_at (new_complaint seed v dealer receiver skv pkv ad) /\
  computes [] h (h_generate_complaints ds ad receiver sk pk seed) (fun h' => Forall2 (entry_at (complaint_at h')))
    (generate_complaints vs ad receiver skv pkv seed) /\
  computes [] h (h_complaint_verify c d dealer receiver pk ad) (fun _ _ _ => True) (complaint_verify cv v dealer receiver pkv ad).
Proof.
  intros X GO h seed ad dealer receiver d v sk pk skv pkv ds vs c cv D Sk Pk Ds C. conj.
  - cr ltac:(apply h_new_complaint_ok; assumption).
  - cr ltac:(apply h_generate_complaints_ok; assumption).
  - cr ltac:(apply h_complaint_verify_ok; assumption).
Qed.

(** ** CorruptDealing *)
(** The result is the corrupted dealing; of a dealing with encrypted pairs the
    argument has become the corrupted dealing too. *)
Theorem C72_corruption_damages_the_given_pairs :
  forall (X : Oracles) (GO : Grp) (h : heap) (d : hdealing) v (targets : list Z) (seed : bytes),
  dealing_at h d v -> NoDup (dealing_cells d) -> unwrap (d_cm v) = d_cm v ->
  computes (first_components d) h (h_corrupt_dealing d targets seed)
    (fun h' a b => dealing_at h' a b /\
       match hd_ct d with HMPair _ _ _ _ => dealing_at h' d b | _ => dealing_at h' d v end)
    (corrupt_dealing v targets seed).
Proof.
  intros X GO h d v targets seed D N U.
  assert (NS : unshared d).
  { unfold unshared, dealing_cells in *. destruct (hd_ct d) as [e p pf ct|e p pf ct|] eqn:Ec; try exact I. simpl in N.
    inversion N as [|? ? _ N1]; subst. inversion N1 as [|? ? _ N2]; subst. inversion N2 as [|? ? M3 N3]; subst. inversion N3 as [|? ? M4 N4]; subst.
    rewrite <- !app_assoc in *. split; [exact (nodup_left _ _ N4)|].
    intros x Ix Iy. rewrite !in_app_iff in Iy. simpl in M3, M4. rewrite !in_app_iff in M3, M4.
    destruct Iy as [Iy|[Iy|Iy]].
    - eapply nodup_split; [exact N4|exact Ix|]. rewrite !in_app_iff. auto.
    - simpl in Iy. destruct Iy as [<-|[<-|[]]]; tauto.
    - eapply nodup_split; [exact N4|exact Ix|]. rewrite !in_app_iff. destruct (hd_proof d); simpl in *; auto. }
  pose proof (h_corrupt_dealing_ok h d targets seed v D U NS) as Rf.
  destruct Rf as [[E L] Q]. split.
  - intros p Lp Np. destruct (nth_error h p) as [c|] eqn:G0; [|apply nth_error_None in G0; lia]. now apply (E p c).
  - destruct (snd (h_corrupt_dealing d targets seed h)), (corrupt_dealing v targets seed); simpl in *; auto.
    destruct Q as [Q1 Q2]. split; [exact Q1|]. unfold first_cells in E. destruct (hd_ct d) eqn:Ec; [|exact Q2|];
      (eapply dv_ext; [|exact D]; split; assumption).
Qed.
Ltac inv_res E :=
  repeat match type of E with
         | bind ?r _ = _ => destruct r eqn:?; simpl bind in E; try discriminate
         | (if ?b then _ else _) = _ => destruct b; try discriminate
         | match ?x with _ => _ end = _ => destruct x; try discriminate
         end; injection E as <-.
Lemma ec_single_unwrapped {X : Oracles} {GO : Grp} po n rc dealer ad seed e :
  encrypt_and_commit_single po n rc dealer ad seed = Ok e -> unwrap (snd e) = snd e.
Proof.
  unfold encrypt_and_commit_single, simple_create. intros E. inv_res E. cbn [snd].
  match goal with H : (if ?b then _ else _) = Ok _ |- _ => destruct b; [discriminate|injection H as <-] end. reflexivity.
Qed.
Lemma ec_pair_unwrapped {X : Oracles} {GO : Grp} va ma n rc dealer ad seed e :
  encrypt_and_commit_pair va ma n rc dealer ad seed = Ok e -> unwrap (snd e) = snd e.
Proof.
  unfold encrypt_and_commit_pair, pedersen_create. intros E. inv_res E. cbn [snd].
  match goal with H : (if ?b then _ else _) = Ok _ |- _ => destruct b; [discriminate|injection H as <-] end. reflexivity.
Qed.
Lemma new_dealing_unwrapped {X : Oracles} {GO : Grp} sh seed t rc dealer ad v : new_dealing sh seed t rc dealer ad = Ok v -> unwrap (d_cm v) = d_cm v.
Proof.
  unfold new_dealing. intros E. inv_res E; cbn [d_cm];
    first [reflexivity | eapply ec_pair_unwrapped; eassumption | eapply ec_single_unwrapped; eassumption].
Qed.
(** In particular for every dealing that NewDealing has made. *)
Theorem C72_corruption_of_a_new_dealing :
  forall (X : Oracles) (GO : Grp) (h : heap) (sh : hshares) shv (seed ad : bytes) (t dealer : Z) (rc : list ptr) rcv (d : hdealing)
    (targets : list Z) (seed2 : bytes),
  shares_in h sh shv -> points_at h rc rcv -> snd (h_new_dealing sh seed t rc dealer ad h) = Ok d ->
  exists v, new_dealing shv seed t rcv dealer ad = Ok v /\
  computes (first_components d) (fst (h_new_dealing sh seed t rc dealer ad h)) (h_corrupt_dealing d targets seed2)
    (fun h' a b => dealing_at h' a b /\
       match hd_ct d with HMPair _ _ _ _ => dealing_at h' d b | _ => dealing_at h' d v end)
    (corrupt_dealing v targets seed2).
Proof.
  intros X GO h sh shw seed ad t dealer rc rcv d targets seed2 S P E.
  destruct (h_new_dealing_ok h sh seed t rc dealer ad shw rcv S P) as [_ Q]. unfold rel in Q. rewrite E in Q.
  destruct (new_dealing shw seed t rcv dealer ad) as [v| | |] eqn:Ev; try contradiction. exists v. split; [reflexivity|].
  apply C72_corruption_damages_the_given_pairs.
  - exact Q.
  - exact (tri_nodup _ _ (tri_new_dealing _ _ _ _ _ _ _) _ _ E).
  - eapply new_dealing_unwrapped; exact Ev.
Qed.
(** Clone of a product proof returns the receiver's own cells. *)
Theorem C72_product_clone_is_the_original :
  forall (X : Oracles) (GO : Grp) (pr : hprod), writes_only [] (h_prod_clone pr) (fun _ r => r = pr).
Proof. intros. kw fr_h_prod_clone. Qed.

From Verif Require Toy.
#[local] Existing Instance Toy.toyX.
#[local] Existing Instance Toy.toyG.
(** test values, not code of /repo *)
Definition ex_heap : heap :=
  [VP (of_Z q 5); VP (of_Z q 6); VS (of_Z q 7); VS (of_Z q 8); VS (of_Z q 9); VS (of_Z q 10); VP (of_Z q 11); VS (of_Z q 12)].
Definition ex_dealing : hdealing := mkhdealing (HMPair 0%nat 1%nat (mkhdlog 2%nat 3%nat) [(4, 5)]%nat) (HCPedersen [6]%nat) HPNone.
Definition ex_value : dealing :=
  mkdealing (MPair (of_Z q 5) (of_Z q 6) (mkdlog (of_Z q 7) (of_Z q 8)) [(of_Z q 9, of_Z q 10)]) (CPedersen [of_Z q 11]) PNone.
Definition ex_seed : bytes := map Z.of_nat (seq 1 32).
Definition holds (h : heap) (p : ptr) (v : Fq) : bool := match nth_error h p with Some (VS w) => feqb v w | _ => false end.

(** "CorruptDealing leaves the dealing it is given alone": false. *)
Theorem C72_corruption_keeps_its_argument_refuted :
  ~ forall (X : Oracles) (GO : Grp) (GL : GrpLaws GO) (h : heap) (d : hdealing) v (targets : list Z) (seed : bytes),
    dealing_at h d v -> dealing_at (fst (h_corrupt_dealing d targets seed h)) d v.
Proof.
  intros H. specialize (H Toy.toyX Toy.toyG Toy.toyL ex_heap ex_dealing ex_value [0] ex_seed).
  assert (D : dealing_at ex_heap ex_dealing ex_value).
  { unfold dealing_at, ex_dealing, ex_value. cbn [hd_ct d_ct hd_cm d_cm hd_proof d_proof ciphertext_at commitment_at zk_at].
    repeat (split || constructor). }
  apply H in D. destruct D as [(_ & _ & _ & D) _].
  assert (N : holds (fst (h_corrupt_dealing ex_dealing [0] ex_seed ex_heap)) 4%nat (of_Z q 9) = false) by (vm_compute; reflexivity).
  set (h' := fst _) in D, N. clearbody h'. cbn [hd_ct d_ct ex_dealing ex_value] in D.
  inversion D as [|a b l r P _]. destruct P as [P _]. unfold scalar_at in P. cbn [fst snd] in P.
  unfold holds in N. rewrite P in N. rewrite (proj2 (feqb_eq _ _ _) eq_refl) in N. discriminate.
Qed.
(** "Clone of a product proof is a copy": false. *)
Theorem C72_product_clone_is_a_copy_refuted :
  ~ forall (X : Oracles) (GO : Grp) (GL : GrpLaws GO) (pr : hprod),
    writes_only [] (h_prod_clone pr) (fun h r => Forall (fresh h) (prod_cells r)).
Proof.
  intros H. destruct (H Toy.toyX Toy.toyG Toy.toyL (mkhprod 2%nat 3%nat 4%nat) ex_heap) as [_ F].
  assert (E : snd (h_prod_clone (mkhprod 2%nat 3%nat 4%nat) ex_heap) = Ok (mkhprod 2%nat 3%nat 4%nat)) by reflexivity.
  specialize (F _ E). inversion F as [|? ? L _]. unfold fresh in L. simpl in L. lia.
Qed.
Example C72_ex_corrupt : dealing_at ex_heap ex_dealing ex_value /\ NoDup (dealing_cells ex_dealing) /\ unwrap (d_cm ex_value) = d_cm ex_value.
Proof.
  split; [|split; [|reflexivity]].
  - unfold dealing_at, ex_dealing, ex_value. cbn [hd_ct d_ct hd_cm d_cm hd_proof d_proof ciphertext_at commitment_at zk_at].
    repeat (split || constructor).
  - unfold dealing_cells, ex_dealing. simpl. repeat (constructor; [simpl; lia|]). constructor.
Qed.
(** A dealing made for two receivers passes their checks; after CorruptDealing
    for receiver 1 the dealing given to it fails there if its plaintexts are
    pairs, and still passes if they are single scalars. *)
Definition ex_keys : heap := [VS (of_Z q 7); VP (of_Z q 21); VS (of_Z q 8); VP (of_Z q 24); VS (of_Z q 9)].
Definition ex_run (sh : hshares) : M (list bool) :=
  let! d := h_new_dealing sh ex_seed 2 [1; 3]%nat 0 [1] in
  let! a := hattempt (h_private_verify d 0%nat 1%nat [1] 0 0) in
  let! b := hattempt (h_private_verify d 2%nat 3%nat [1] 0 1) in
  h_corrupt_dealing d [1] ex_seed ;;
  let! a' := hattempt (h_private_verify d 0%nat 1%nat [1] 0 0) in
  let! b' := hattempt (h_private_verify d 2%nat 3%nat [1] 0 1) in
  hret (map (fun o : option unit => match o with Some _ => true | None => false end) [a; b; a'; b']).
Example C72_ex_pairs : snd (ex_run HSRandom ex_keys) = Ok [true; true; true; false].
Proof. vm_compute. reflexivity. Qed.
Example C72_ex_single : snd (ex_run (HSReshareMasked 0 4)%nat ex_keys) = Ok [true; true; true; true].
Proof. vm_compute. reflexivity. Qed.

Print Assumptions C72_proofs_change_nothing.
Print Assumptions C72_encryption_changes_nothing.
Print Assumptions C72_dealings_change_nothing.
Print Assumptions C72_openings_change_nothing.
Print Assumptions C72_complaints_change_nothing.
Print Assumptions C72_new_cells_distinct.
Print Assumptions C72_corruption_writes_only_pairs.
Print Assumptions C72_proofs.
Print Assumptions C72_encryption.
Print Assumptions C72_dealings.
Print Assumptions C72_openings.
Print Assumptions C72_complaints.
Print Assumptions C72_corruption_damages_the_given_pairs.
Print Assumptions C72_corruption_of_a_new_dealing.
Print Assumptions C72_product_clone_is_the_original.
Print Assumptions C72_corruption_keeps_its_argument_refuted.
Print Assumptions C72_product_clone_is_a_copy_refuted.
