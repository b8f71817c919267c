From Coq Require Import ZArith Lia List Bool String Permutation Sorted.
From Verif Require Import Base BaseFacts Zmod Fields ModelScalar ModelXmd ModelRo SpecRo ProofScalar ProofXmd.
Import ListNotations.
Open Scope Z_scope.

Notation entry := (bytes * bytes)%type.

(** ** sorted association lists *)
Definition key_lt (a b : entry) : Prop := bytes_ltb (fst a) (fst b) = true.
Definition sorted (l : list entry) : Prop := StronglySorted key_lt l.

Lemma lookup_insert n d l m : lookup n l = None ->
  lookup m (insert n d l) = if bytes_eqb n m then Some d else lookup m l.
Proof.
  induction l as [|[k v] l IH]; simpl; intro H; [reflexivity|].
  destruct (bytes_eqb k n) eqn:Ekn; [discriminate|].
  destruct (bytes_ltb n k) eqn:Elt; simpl; [reflexivity|].
  rewrite IH by exact H. destruct (bytes_eqb k m) eqn:Ekm, (bytes_eqb n m) eqn:Enm; auto.
  apply bytes_eqb_eq in Ekm, Enm. subst. now rewrite bytes_eqb_refl in Ekn.
Qed.

Lemma insert_in n d l e : In e (insert n d l) <-> e = (n, d) \/ In e l.
Proof.
  induction l as [|[k v] l IH]; simpl; [intuition|].
  destruct (bytes_ltb n k); simpl; [intuition|]. rewrite IH. intuition.
Qed.

Lemma insert_sorted n d l : lookup n l = None -> sorted l -> sorted (insert n d l).
Proof.
  induction l as [|[k v] l IH]; simpl; intros H S.
  - constructor; constructor.
  - destruct (bytes_eqb k n) eqn:Ekn; [discriminate|].
    inversion S as [|? ? S' F]; subst.
    destruct (bytes_ltb n k) eqn:Elt.
    + constructor; [exact S|]. constructor; [exact Elt|].
      rewrite Forall_forall in *. intros e He. unfold key_lt in *. simpl.
      eapply bytes_ltb_trans; [exact Elt|]. now apply F.
    + constructor; [now apply IH|].
      rewrite Forall_forall in *. intros e He. apply insert_in in He as [->|He]; [|now apply F].
      unfold key_lt. simpl. apply bytes_eqb_neq in Ekn.
      destruct (bytes_ltb_total k n) as [?|[?|?]]; auto; congruence.
Qed.

Lemma sorted_lookup_lt k v l n : sorted ((k, v) :: l) -> bytes_ltb n k = true -> lookup n ((k, v) :: l) = None.
Proof.
  intros S H. inversion S as [|? ? S' F]; subst.
  assert (A : forall l', Forall (key_lt (k, v)) l' -> lookup n l' = None).
  { induction 1 as [|[k' v'] l' Hk Hl IHl]; simpl; auto. unfold key_lt in Hk; simpl in Hk.
    destruct (bytes_eqb k' n) eqn:E; auto. apply bytes_eqb_eq in E. subst.
    rewrite (bytes_ltb_asym _ _ H) in Hk. discriminate. }
  simpl. destruct (bytes_eqb k n) eqn:E; [|now apply A].
  apply bytes_eqb_eq in E. subst. now rewrite bytes_ltb_irrefl in H.
Qed.

Lemma sorted_ext l l' : sorted l -> sorted l' -> (forall n, lookup n l = lookup n l') -> l = l'.
Proof.
  revert l'. induction l as [|[k v] l IH]; intros [|[k' v'] l'] S S' H.
  - reflexivity.
  - specialize (H k'). simpl in H. rewrite bytes_eqb_refl in H. discriminate.
  - specialize (H k). simpl in H. rewrite bytes_eqb_refl in H. discriminate.
  - assert (k = k').
    { destruct (bytes_ltb_total k k') as [L|[E|L]]; auto.
      - pose proof (sorted_lookup_lt _ _ _ _ S' L) as N. rewrite <- H in N. simpl in N. now rewrite bytes_eqb_refl in N.
      - pose proof (sorted_lookup_lt _ _ _ _ S L) as N. rewrite H in N. simpl in N. now rewrite bytes_eqb_refl in N. }
    subst k'.
    assert (v = v'). { specialize (H k). simpl in H. rewrite bytes_eqb_refl in H. congruence. }
    subst v'. f_equal. inversion S as [|? ? Sl F]; inversion S' as [|? ? Sl' F']; subst.
    apply IH; auto. intro n.
    destruct (bytes_eqb k n) eqn:E.
    + apply bytes_eqb_eq in E. subst n.
      assert (A : forall l0, Forall (key_lt (k, v)) l0 -> lookup k l0 = None).
      { induction 1 as [|[k0 v0] l0 Hk Hl IHl]; simpl; auto. unfold key_lt in Hk; simpl in Hk.
        destruct (bytes_eqb k0 k) eqn:E; auto. apply bytes_eqb_eq in E. subst. now rewrite bytes_ltb_irrefl in Hk. }
      now rewrite !A.
    + specialize (H n). simpl in H. now rewrite E in H.
Qed.

(** ** runs of AddInput *)
Definition run1 (r : ro) (c : call) : ro := let '(n, d, t) := c in ro_add_ign r n d t.
Definition run (r : ro) (l : list call) : ro := fold_left run1 l r.

Definition enc (x : bytes * Z) : bytes := snd x :: be_bytes 4 (u32 (blen (fst x))) ++ fst x.

Lemma ro_add_input_cases r n d t :
  ro_add_input r n d t = (if call_wf (n, d, t) then
     match lookup n (ro_inputs r) with Some _ => (r, false)
     | None => (mkro (ro_dst r) (insert n (enc (d, t)) (ro_inputs r)), true) end else (r, false)).
Proof.
  unfold ro_add_input, call_wf, enc. simpl.
  pose proof (blen_nonneg n).
  destruct (lookup n (ro_inputs r)); [now destruct (_ && _)|].
  destruct (Z.eqb_spec (blen n) 0), (Z.ltb_spec 255 (blen n)), (Z.leb_spec 1 (blen n)), (Z.leb_spec (blen n) 255),
    (Z.ltb_spec 255 (blen d)), (Z.leb_spec (blen d) 255); simpl; try lia; reflexivity.
Qed.

Lemma run1_lookup r c m :
  lookup m (ro_inputs (run1 r c)) =
    match lookup m (ro_inputs r) with
    | Some v => Some v
    | None => let '(n, d, t) := c in if bytes_eqb n m && call_wf c then Some (enc (d, t)) else None
    end.
Proof.
  destruct c as [[n d] t]. unfold run1, ro_add_ign. rewrite ro_add_input_cases.
  destruct (call_wf (n, d, t)).
  - rewrite andb_true_r. destruct (lookup n (ro_inputs r)) eqn:E; simpl.
    + destruct (lookup m (ro_inputs r)) eqn:E2; auto.
      destruct (bytes_eqb n m) eqn:Enm; auto. apply bytes_eqb_eq in Enm. congruence.
    + rewrite lookup_insert by exact E. destruct (bytes_eqb n m) eqn:Enm; simpl.
      * apply bytes_eqb_eq in Enm. subst. now rewrite E.
      * now destruct (lookup m (ro_inputs r)).
  - cbn [fst]. rewrite andb_false_r. now destruct (lookup m (ro_inputs r)).
Qed.

Lemma run1_sorted r c : sorted (ro_inputs r) -> sorted (ro_inputs (run1 r c)).
Proof.
  destruct c as [[n d] t]. unfold run1, ro_add_ign. rewrite ro_add_input_cases.
  destruct (call_wf _); auto. destruct (lookup n (ro_inputs r)) eqn:E; auto. simpl. now apply insert_sorted.
Qed.
Lemma run_sorted l : forall r, sorted (ro_inputs r) -> sorted (ro_inputs (run r l)).
Proof. induction l as [|c l IH]; simpl; auto. intros r S. now apply IH, run1_sorted. Qed.

Lemma run1_dst r c : ro_dst (run1 r c) = ro_dst r.
Proof.
  destruct c as [[n d] t]. unfold run1, ro_add_ign. rewrite ro_add_input_cases.
  destruct (call_wf _); auto. destruct (lookup n (ro_inputs r)); auto.
Qed.
Lemma run_dst l : forall r, ro_dst (run r l) = ro_dst r.
Proof. induction l as [|c l IH]; simpl; auto. intro r. now rewrite IH, run1_dst. Qed.

Lemma run_lookup l : forall r m,
  lookup m (ro_inputs (run r l)) =
    match lookup m (ro_inputs r) with Some v => Some v | None => option_map enc (content l m) end.
Proof.
  induction l as [|[[n d] t] l IH]; intros r m.
  - simpl. now destruct (lookup m (ro_inputs r)).
  - unfold run in *. cbn [fold_left]. rewrite IH, run1_lookup. cbn [content].
    destruct (lookup m (ro_inputs r)); auto.
    destruct (bytes_eqb n m && call_wf (n, d, t)); reflexivity.
Qed.

Lemma cons_eq {A} (a b : A) l l' : a :: l = b :: l' -> a = b /\ l = l'.
Proof. intro H; now inversion H. Qed.

Lemma app_same_length {A} (a b c d : list A) :
  List.length a = List.length b -> a ++ c = b ++ d -> a = b /\ c = d.
Proof.
  revert b; induction a as [|x a IH]; intros [|y b]; simpl; intros L H; try discriminate; auto.
  injection H as -> H. injection L as L. destruct (IH _ L H) as [-> ->]. auto.
Qed.

Lemma enc_inj a b : blen (fst a) <= 255 -> blen (fst b) <= 255 -> enc a = enc b -> a = b.
Proof.
  destruct a as [a t], b as [b u]; unfold enc; cbn [fst snd]; intros Ha Hb H. apply cons_eq in H as [-> H].
  apply app_same_length in H as [_ ->]; [reflexivity|now rewrite !be_bytes_length].
Qed.

(** well-formed entries, as stored by AddInput *)
Definition entry_wf (e : entry) : Prop :=
  1 <= blen (fst e) <= 255 /\ exists d t, snd e = enc (d, t) /\ blen d <= 255.

Lemma run1_wf r c : Forall entry_wf (ro_inputs r) -> Forall entry_wf (ro_inputs (run1 r c)).
Proof.
  destruct c as [[n d] t]. unfold run1, ro_add_ign. rewrite ro_add_input_cases.
  destruct (call_wf (n, d, t)) eqn:W; auto. destruct (lookup n (ro_inputs r)); auto.
  simpl. intro F. apply Forall_forall. intros e He. apply insert_in in He as [->|He].
  - unfold call_wf in W. rewrite !andb_true_iff, !Z.leb_le in W. split; simpl; [lia|]. exists d, t. split; [reflexivity|lia].
  - rewrite Forall_forall in F; auto.
Qed.
Lemma run_wf l : forall r, Forall entry_wf (ro_inputs r) -> Forall entry_wf (ro_inputs (run r l)).
Proof. induction l as [|c l IH]; simpl; auto. intros r S. now apply IH, run1_wf. Qed.

(** the encoding of one entry is prefix free *)
Lemma entry_prefix_free e f a b : entry_wf e -> entry_wf f ->
  entry_bytes e ++ a = entry_bytes f ++ b -> e = f /\ a = b.
Proof.
  destruct e as [n v], f as [m w]. intros [Hn [d [t [Ev Hd]]]] [Hm [d' [t' [Ew Hd']]]] H.
  cbn [fst snd] in *. subst v w. unfold entry_bytes in H. cbn [fst snd app] in H.
  apply cons_eq in H as [Hl H].
  assert (L : List.length n = List.length m).
  { unfold u8, blen in *. rewrite !Z.mod_small in Hl by lia. lia. }
  rewrite <- !app_assoc in H. apply app_same_length in H as [-> H]; [|exact L].
  unfold enc in H. cbn [fst snd app] in H. apply cons_eq in H as [-> H].
  rewrite <- !app_assoc in H.
  apply app_same_length in H as [Hb H]; [|now rewrite !be_bytes_length].
  assert (Ld : blen d = blen d').
  { apply (f_equal be_val) in Hb. rewrite !be_val_be_bytes in Hb. unfold u32 in Hb.
    pose proof (blen_nonneg d). pose proof (blen_nonneg d').
    change (256 ^ Z.of_nat 4) with (2 ^ 32) in Hb. rewrite !Z.mod_mod, !Z.mod_small in Hb by lia. exact Hb. }
  apply app_same_length in H as [-> ->]; [|unfold blen in Ld; lia].
  split; reflexivity.
Qed.

Lemma flat_map_inj l l' : Forall entry_wf l -> Forall entry_wf l' ->
  flat_map entry_bytes l = flat_map entry_bytes l' -> l = l'.
Proof.
  intro F; revert l'; induction F as [|e l He Fl IH]; intros [|f l'] F' H; auto.
  - simpl in H. discriminate.
  - simpl in H. discriminate.
  - inversion F'; subst. cbn [flat_map] in H. apply entry_prefix_free in H as [-> H]; auto.
    f_equal. now apply IH.
Qed.

Lemma new_ro_sorted d : sorted (ro_inputs (new_ro d)). Proof. constructor. Qed.
Lemma new_ro_wf d : Forall entry_wf (ro_inputs (new_ro d)). Proof. constructor. Qed.

Lemma content_wf l n d t : content l n = Some (d, t) -> blen d <= 255.
Proof.
  induction l as [|[[m d'] t'] l IH]; cbn [content]; [discriminate|].
  destruct (bytes_eqb m n && call_wf (m, d', t')) eqn:E; auto.
  intro H; inversion H; subst. apply andb_true_iff in E as [_ W]. unfold call_wf in W.
  rewrite !andb_true_iff, !Z.leb_le in W. lia.
Qed.

Lemma run_inputs_eq_iff d1 d2 l1 l2 :
  ro_inputs (run (new_ro d1) l1) = ro_inputs (run (new_ro d2) l2) <->
  forall n, content l1 n = content l2 n.
Proof.
  split.
  - intros E n. pose proof (run_lookup l1 (new_ro d1) n) as A. pose proof (run_lookup l2 (new_ro d2) n) as B.
    simpl in A, B. rewrite E, B in A.
    destruct (content l1 n) as [[a t]|] eqn:E1, (content l2 n) as [[b u]|] eqn:E2; simpl in A; try congruence.
    apply (f_equal (fun o => match o with Some x => x | None => [] end)) in A.
    rewrite (enc_inj (b, u) (a, t)); [reflexivity| | |exact A]; cbn [fst]; eauto using content_wf.
  - intro H. apply sorted_ext.
    + apply run_sorted, new_ro_sorted.
    + apply run_sorted, new_ro_sorted.
    + intro n. rewrite !run_lookup. simpl. now rewrite H.
Qed.

Lemma ro_form_eq_iff d1 d2 l1 l2 :
  ro_form (run (new_ro d1) l1) = ro_form (run (new_ro d2) l2) <->
  forall n, content l1 n = content l2 n.
Proof.
  rewrite <- (run_inputs_eq_iff d1 d2). unfold ro_form.
  pose proof (run_wf l1 _ (new_ro_wf d1)) as W1. pose proof (run_wf l2 _ (new_ro_wf d2)) as W2.
  split.
  - destruct (ro_inputs (run (new_ro d1) l1)) as [|e1 i1], (ro_inputs (run (new_ro d2) l2)) as [|e2 i2]; intro H;
      try reflexivity; try discriminate.
    apply flat_map_inj; auto. congruence.
  - now intros ->.
Qed.

Lemma content_perm l1 l2 : Permutation l1 l2 -> NoDup (map (fun c => fst (fst c)) l1) ->
  forall n, content l1 n = content l2 n.
Proof.
  induction 1 as [|[[m d] t] l l' P IH|[[m d] t] [[m' d'] t'] l|l1 l2 l3 P1 IH1 P2 IH2]; intros N n; auto.
  - cbn [content]. destruct (_ && _); auto. apply IH. now inversion N.
  - cbn [content].
    destruct (bytes_eqb m n) eqn:E1, (bytes_eqb m' n) eqn:E2; cbn [andb]; auto.
    apply bytes_eqb_eq in E1, E2. subst. simpl in N. inversion N; subst. simpl in *. intuition.
  - rewrite IH1 by exact N. apply IH2.
    eapply Permutation_NoDup; [|exact N]. now apply Permutation_map.
Qed.
