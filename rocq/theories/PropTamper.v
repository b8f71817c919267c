(** C89: ciphertexts are not authenticated: whoever relays a dealing can spoil it
    for a receiver of their choice, and the dealer gets the blame. *)
From Coq Require Import ZArith Lia Bool String List Ring Field.
From Verif Require Import Base BaseFacts Zmod Fields ModelScalar ModelXmd ModelRo ModelPoly SpecPoly ProofPoly ModelGroup GroupFacts ModelCommit
  ModelZk ModelMega ModelDealing ModelComplaint ProofTranscript ProofSign PropComplaint.
From Verif Require Toy.
Import ListNotations.
Open Scope Z_scope.

(** Spec: [m'] is [m] with (u, v) added to the entry of receiver [i] *)
Definition changed_at {A} (add : A -> A) (i : Z) (l l' : list A) : Prop :=
  0 <= i /\ length l' = length l /\ (forall j, j <> Z.to_nat i -> nth_error l' j = nth_error l j) /\
  forall a, nth_error l (Z.to_nat i) = Some a -> nth_error l' (Z.to_nat i) = Some (add a).
Definition tampered {GO : Grp} (i : Z) (u v : Fq) (m m' : ciphertext) : Prop :=
  match m, m' with
  | MSingle e p pf l, MSingle e' p' pf' l' => (e, p, pf) = (e', p', pf') /\ v = fzero /\ changed_at (fadd u) i l l'
  | MPair e p pf l, MPair e' p' pf' l' => (e, p, pf) = (e', p', pf') /\ changed_at (fun a => (fadd u (fst a), fadd v (snd a))) i l l'
  | _, _ => False
  end.
(** the opening shifted by (u, v) *)
Definition shifted (u v : Fq) (o : opening) : opening :=
  match o with OSimple a => OSimple (fadd u a) | OPedersen a b => OPedersen (fadd u a) (fadd v b) | o => o end.

Section Tamper.
Context {X : Oracles} {GO : Grp} {GL : GrpLaws GO}.

Lemma tampered_checks i u v m m' : tampered i u v m m' ->
  m_recipients m' = m_recipients m /\ (forall ad k, m_verify_pop m' ad k = m_verify_pop m ad k) /\ (forall t, m_verify_is m' t = m_verify_is m t) /\
  m_eph m' = m_eph m.
Proof.
  destruct m as [e p pf l|e p pf l|], m' as [e' p' pf' l'|e' p' pf' l'|]; cbn [tampered]; try contradiction.
  - intros (E & _ & _ & L & _). assert (e' = e /\ p' = p /\ pf' = pf) as (-> & -> & ->) by (repeat split; congruence).
    cbn [m_recipients m_eph]. rewrite L. auto.
  - intros (E & _ & L & _). assert (e' = e /\ p' = p /\ pf' = pf) as (-> & -> & ->) by (repeat split; congruence).
    cbn [m_recipients m_eph]. rewrite L. auto.
Qed.
Lemma publicly_verify_ct d ct' op th k n ad :
  m_recipients ct' = m_recipients (d_ct d) -> (forall ad k, m_verify_pop ct' ad k = m_verify_pop (d_ct d) ad k) -> (forall t, m_verify_is ct' t = m_verify_is (d_ct d) t) ->
  publicly_verify (mkdealing ct' (d_cm d) (d_proof d)) op th k n ad = publicly_verify d op th k n ad.
Proof.
  intros R P I. unfold publicly_verify, m_check_validity. cbn [d_cm d_ct d_proof]. rewrite R, P. 
  destruct op; rewrite ?I; reflexivity.
Qed.
Lemma index_other {A} (f : A -> A) i l l' j : changed_at f i l l' -> j <> i -> 0 <= j -> index l' j = index l j.
Proof.
  intros (Hi & _ & O & _) N Hj. unfold index, nth_or_panic. rewrite O; [reflexivity|lia].
Qed.
Lemma index_same {A} (f : A -> A) i l l' a : changed_at f i l l' -> index l i = Ok a -> index l' i = Ok (f a).
Proof.
  intros (Hi & _ & _ & O). unfold index, nth_or_panic. destruct (i <? 0); [discriminate|].
  destruct (nth_error l (Z.to_nat i)) as [b|] eqn:E; [|discriminate]. intros Q. apply Ok_inj in Q. subst b. rewrite (O a eq_refl). reflexivity.
Qed.
Lemma decrypt_other i u v m m' ad k j sk pk : tampered i u v m m' -> j <> i -> 0 <= j ->
  m_decrypt m' ad k j sk pk = m_decrypt m ad k j sk pk.
Proof.
  intros T N Hj. destruct (tampered_checks _ _ _ _ _ T) as (_ & P & _). unfold m_decrypt. rewrite P.
  destruct m as [e p pf l|e p pf l|], m' as [e' p' pf' l'|e' p' pf' l'|]; cbn [tampered] in T; try contradiction.
  - destruct T as (E & _ & C). assert (e' = e) as -> by congruence. unfold decrypt_single_ss. rewrite (index_other _ _ _ _ _ C N Hj).
    destruct C as (_ & L & _). rewrite L. reflexivity.
  - destruct T as (E & C). assert (e' = e) as -> by congruence. unfold decrypt_pair_ss. rewrite (index_other _ _ _ _ _ C N Hj).
    destruct C as (_ & L & _). rewrite L. reflexivity.
Qed.
Lemma decrypt_target i u v m m' ad k sk pk o : tampered i u v m m' ->
  m_decrypt m ad k i sk pk = Ok o -> m_decrypt m' ad k i sk pk = Ok (shifted u v o).
Proof.
  intros T. destruct (tampered_checks _ _ _ _ _ T) as (_ & P & _). unfold m_decrypt. rewrite P.
  destruct (m_verify_pop m ad k) as [[]| | |]; try discriminate. rewrite !bind_Ok.
  destruct m as [e p pf l|e p pf l|], m' as [e' p' pf' l'|e' p' pf' l'|]; cbn [tampered] in T; try contradiction.
  - destruct T as (E & _ & C). assert (e' = e) as -> by congruence. unfold decrypt_single_ss.
    assert (L : length l' = length l) by apply C. rewrite L. destruct (_ <=? i); [discriminate|].
    destruct (mega_hash _ _ _ _ _ _ _) as [hm| | |]; try discriminate. rewrite !bind_Ok.
    destruct (index l i) as [a| | |] eqn:E1; try discriminate. rewrite (index_same _ _ _ _ _ C E1), !bind_Ok.
    destruct (nth_or_panic hm 0) as [h0| | |]; try discriminate. rewrite !bind_Ok. intros Q. apply Ok_inj in Q. subst o.
    cbn [shifted]. do 2 f_equal. ring.
  - destruct T as (E & C). assert (e' = e) as -> by congruence. unfold decrypt_pair_ss.
    assert (L : length l' = length l) by apply C. rewrite L. destruct (_ <=? i); [discriminate|].
    destruct (mega_hash _ _ _ _ _ _ _) as [hm| | |]; try discriminate. rewrite !bind_Ok.
    destruct (index l i) as [a| | |] eqn:E1; try discriminate. rewrite (index_same _ _ _ _ _ C E1), !bind_Ok.
    destruct (nth_or_panic hm 0) as [h0| | |]; try discriminate. destruct (nth_or_panic hm 1) as [h1| | |]; try discriminate.
    rewrite !bind_Ok. intros Q. apply Ok_inj in Q. subst o. cbn [shifted fst snd]. do 2 f_equal; ring.
Qed.
Lemma check_shifted c i o u v : (match o with OSimple _ => v = fzero | _ => True end) ->
  c_check_opening c i o = Ok true -> c_check_opening c i (shifted u v o) = Ok (geqb (pedersen u v) gzero).
Proof.
  unfold c_check_opening. intros Hv. destruct (unwrap c) as [l|l|c'|c'|]; try discriminate; destruct o as [a|a b|a|a b|]; try discriminate; cbn [shifted].
  - subst v. destruct (eval_points l i) as [e| | |]; try discriminate. rewrite !bind_Ok. intros H. apply Ok_inj in H. apply geqb_iff in H. subst e. f_equal.
    apply eq_true_iff_eq. rewrite !geqb_iff. split; intros Q.
    + apply (gadd_cancel_l (mul_by_g a)). transitivity (mul_by_g (fadd u a)); [gring|]. rewrite <- Q. gring.
    + transitivity (gadd (mul_by_g a) (pedersen u fzero)); [rewrite Q; gring|gring].
  - destruct (eval_points l i) as [e| | |]; try discriminate. rewrite !bind_Ok. intros H. apply Ok_inj in H. apply geqb_iff in H. subst e. f_equal.
    apply eq_true_iff_eq. rewrite !geqb_iff. split; intros Q.
    + apply (gadd_cancel_l (pedersen a b)). transitivity (pedersen (fadd u a) (fadd v b)); [gring|]. rewrite <- Q. gring.
    + transitivity (gadd (pedersen a b) (pedersen u v)); [rewrite Q; gring|gring].
Qed.
Lemma decrypted_kind i u v m m' ad k sk pk o : tampered i u v m m' -> m_decrypt m ad k i sk pk = Ok o ->
  match o with OSimple _ => v = fzero | _ => True end.
Proof.
  intros T. unfold m_decrypt. destruct (m_verify_pop m ad k); try discriminate. rewrite bind_Ok.
  destruct m as [e p pf l|e p pf l|], m' as [e' p' pf' l'|e' p' pf' l'|]; cbn [tampered] in T; try contradiction.
  - intros E. apply bind_inv in E. destruct E as (s & _ & E). apply Ok_inj in E. subst o. apply T.
  - intros E. apply bind_inv in E. destruct E as (s & _ & E). apply Ok_inj in E. subst o. exact I.
Qed.
End Tamper.

(** Adding anything to a receiver's entry is invisible to public verification and
    to all other receivers; the receiver concerned, if the dealing opened for
    them, gets the shifted opening when the shift commits to zero (for a single
    ciphertext: when it is zero) and an error otherwise *)
Theorem C89_tampering_hits_one_receiver :
  forall (X : Oracles) (GO : Grp) (GL : GrpLaws GO) d ct' i u v,
  tampered i u v (d_ct d) ct' ->
  let d' := mkdealing ct' (d_cm d) (d_proof d) in
  (forall op th k n ad, publicly_verify d' op th k n ad = publicly_verify d op th k n ad) /\
  (forall j ad k sk pk, 0 <= j -> j <> i -> m_decrypt_and_check ct' (d_cm d) ad k j sk pk = m_decrypt_and_check (d_ct d) (d_cm d) ad k j sk pk) /\
  (forall ad k sk pk o, m_decrypt_and_check (d_ct d) (d_cm d) ad k i sk pk = Ok o ->
     m_decrypt_and_check ct' (d_cm d) ad k i sk pk = if geqb (pedersen u v) gzero then Ok (shifted u v o) else Err).
Proof.
  intros X GO GL d ct' i u v T. destruct (tampered_checks _ _ _ _ _ T) as (R & P & I & _). split; [|split].
  - intros. apply publicly_verify_ct; assumption.
  - intros j ad k sk pk Hj N. unfold m_decrypt_and_check. rewrite (decrypt_other _ _ _ _ _ ad k j sk pk T N Hj). reflexivity.
  - intros ad k sk pk o H. unfold m_decrypt_and_check in *. apply bind_inv in H. destruct H as (o' & D & H). apply bind_inv in H. destruct H as (b & C & H).
    destruct b; [|discriminate]. apply Ok_inj in H. subst o'.
    rewrite (decrypt_target _ _ _ _ _ _ _ _ _ _ T D), bind_Ok, (check_shifted _ _ _ _ _ (decrypted_kind _ _ _ _ _ _ _ _ _ _ T D) C), bind_Ok. reflexivity.
Qed.
(** So the relay makes the honest receiver complain, and the complaint against
    the dealer, who did nothing wrong, is accepted *)
Theorem C89_innocent_dealer_blamed :
  forall (X : Oracles) (HX : oracles_ok X) (GO : Grp) (GL : GrpLaws GO) d ct' i u v op th k n ad sk o seed c,
  publicly_verify d op th k n ad = Ok tt -> 0 <= i < n -> m_decrypt_and_check (d_ct d) (d_cm d) ad k i sk (mul_by_g sk) = Ok o ->
  tampered i u v (d_ct d) ct' -> pedersen u v <> gzero ->
  let d' := mkdealing ct' (d_cm d) (d_proof d) in
  new_complaint seed d' k i sk (mul_by_g sk) ad = Ok c -> complaint_verify c d' k i (mul_by_g sk) ad = Ok tt.
Proof.
  intros X HX GO GL d ct' i u v op th k n ad sk o seed c V Hi D T N d' H.
  destruct (C89_tampering_hits_one_receiver X GO GL d ct' i u v T) as (A & _ & B). fold d' in A.
  apply (C46_honest_complaint_iff X HX GO GL d' op th k n ad i sk seed c); [rewrite A; exact V|exact Hi|exact H|].
  unfold d'. cbn [d_ct d_cm]. rewrite (B _ _ _ _ _ D). destruct (geqb (pedersen u v) gzero) eqn:E; [apply geqb_iff in E; contradiction|reflexivity].
Qed.
Print Assumptions C89_tampering_hits_one_receiver.
Print Assumptions C89_innocent_dealer_blamed.
(** such a change exists for every ciphertext, receiver and shift *)
Theorem C89_tampering_is_possible :
  forall (GO : Grp) m i u v, m <> MNil -> (match m with MSingle _ _ _ _ => v = fzero | _ => True end) -> 0 <= i -> exists m', tampered i u v m m'.
Proof.
  intros GO m i u v N Hv Hi.
  assert (S : forall A (f : A -> A) (l : list A) n, exists l', length l' = length l /\ (forall j, j <> n -> nth_error l' j = nth_error l j) /\
    forall a, nth_error l n = Some a -> nth_error l' n = Some (f a)).
  { intros A f. induction l as [|x l IH]; intros n.
    - exists []. split; [reflexivity|]. split; [reflexivity|]. intros a Q. destruct n; discriminate Q.
    - destruct n as [|n].
      + exists (f x :: l). split; [reflexivity|]. split.
        * intros [|j] Hj; [contradiction|reflexivity].
        * intros a Q. cbn [nth_error] in *. congruence.
      + destruct (IH n) as (l' & L & O & T). exists (x :: l'). split; [cbn [length]; congruence|]. split.
        * intros [|j] Hj; [reflexivity|]. cbn [nth_error]. apply O. congruence.
        * intros a Q. cbn [nth_error] in *. apply T. exact Q. }
  destruct m as [e p pf l|e p pf l|]; [| |contradiction].
  - destruct (S _ (fadd u) l (Z.to_nat i)) as (l' & L). exists (MSingle e p pf l'). cbn [tampered]. split; [reflexivity|]. split; [exact Hv|]. split; assumption.
  - destruct (S _ (fun a => (fadd u (fst a), fadd v (snd a))) l (Z.to_nat i)) as (l' & L). exists (MPair e p pf l'). cbn [tampered]. split; [reflexivity|]. split; assumption.
Qed.
Print Assumptions C89_tampering_is_possible.

(** test values: an honest dealing to two receivers; after adding 1 to the first
    value receiver 0 complains, receiver 1 does not, and the complaint passes *)
Import Toy.
Example C89_ex :
  let sk0 := of_Z q 21 in let sk1 := of_Z q 22 in
  match new_dealing SRandom [1] 2 [mul_by_g sk0; mul_by_g sk1] 4 (str "ad") with
  | Ok d =>
    let opens d i sk := is_ok (m_decrypt_and_check (d_ct d) (d_cm d) (str "ad") 4 i sk (mul_by_g sk)) in
    match d_ct d with
    | MPair e p pf ((a, b) :: l) =>
      let d' := mkdealing (MPair e p pf ((fadd fone a, fadd fzero b) :: l)) (d_cm d) (d_proof d) in
      is_ok (publicly_verify d TRandom 2 4 2 (str "ad")) && opens d 0 sk0 && opens d 1 sk1 &&
      is_ok (publicly_verify d' TRandom 2 4 2 (str "ad")) && negb (opens d' 0 sk0) && opens d' 1 sk1 && negb (geqb (pedersen fone fzero) gzero) &&
      match new_complaint (repeat 7 32) d' 4 0 sk0 (mul_by_g sk0) (str "ad") with
      | Ok c => is_ok (complaint_verify c d' 4 0 (mul_by_g sk0) (str "ad")) && negb (is_ok (complaint_verify c d 4 0 (mul_by_g sk0) (str "ad"))) | _ => false end
    | _ => false end
  | _ => false end = true.
Proof. vm_compute. reflexivity. Qed.
