(** Properties C14, C15, C16. *)
From Coq Require Import ZArith Lia Bool String List Permutation.
From Verif Require Import Base BaseFacts Zmod Fields ModelScalar ModelXmd ModelRo SpecRo ProofRo ModelGroup.
From Verif Require Import Toy.
Import ListNotations.
Open Scope Z_scope.

(** C14: [run (new_ro dst) calls] is the oracle after the AddInput calls *)
Theorem C14_order_independent : forall (X : Oracles) (GO : Grp) dst calls1 calls2,
  Permutation calls1 calls2 -> NoDup (map (fun c : call => fst (fst c)) calls1) ->
  let r1 := run (new_ro dst) calls1 in let r2 := run (new_ro dst) calls2 in
  (forall n, ro_output_scalars r1 n = ro_output_scalars r2 n) /\
  ro_output_scalar r1 = ro_output_scalar r2 /\
  (forall n, ro_output_bytes r1 n = ro_output_bytes r2 n) /\
  ro_output_point r1 = ro_output_point r2.
Proof.
  intros X GO dst l1 l2 P N r1 r2.
  assert (E : r1 = r2); [|rewrite E; auto].
  pose proof (proj2 (run_inputs_eq_iff dst dst l1 l2) (content_perm l1 l2 P N)) as E.
  pose proof (run_dst l1 (new_ro dst)) as D1. pose proof (run_dst l2 (new_ro dst)) as D2.
  unfold r1, r2. destruct (run (new_ro dst) l1), (run (new_ro dst) l2). cbn in *. congruence.
Qed.
Print Assumptions C14_order_independent.
Example C14_ex : let a := (str "a", [1; 2], ty_bytes) in let b := (str "b", [3], ty_integer) in
  Permutation [a; b] [b; a] /\ NoDup (map (fun c : call => fst (fst c)) [a; b]).
Proof.
  split; [apply perm_swap|]. constructor; [|constructor; [|constructor]]; simpl; intuition discriminate.
Qed.

(** C15: the bytes hashed determine the named contents ([content], SpecRo) and
    conversely *)
Theorem C15_injective : forall dst1 dst2 calls1 calls2,
  ro_form (run (new_ro dst1) calls1) = ro_form (run (new_ro dst2) calls2) <->
  (forall name, content calls1 name = content calls2 name).
Proof. exact ro_form_eq_iff. Qed.
Print Assumptions C15_injective.
(** [content] really holds what was added *)
Theorem C15_content_added : forall calls name d t, NoDup (map (fun c : call => fst (fst c)) calls) ->
  In (name, d, t) calls -> 1 <= blen name <= 255 -> blen d <= 255 -> content calls name = Some (d, t).
Proof.
  intros calls name d t N H Hn Hd. induction calls as [|[[m d'] t'] calls IH]; [destruct H|].
  cbn [content]. inversion N as [|? ? N1 N2]; subst. destruct H as [H|H].
  - injection H as -> -> ->. rewrite bytes_eqb_refl. unfold call_wf.
    destruct (Z.leb_spec 1 (blen name)), (Z.leb_spec (blen name) 255), (Z.leb_spec (blen d) 255); try lia. reflexivity.
  - destruct (bytes_eqb m name) eqn:E; [|cbn [andb]; apply IH; assumption].
    exfalso. apply bytes_eqb_eq in E. subst. apply N1. apply (in_map (fun c : call => fst (fst c))) in H. exact H.
Qed.
Print Assumptions C15_content_added.
Example C15_ex : content [(str "a", [1; 2], ty_bytes)] (str "a") = Some ([1; 2], ty_bytes). Proof. reflexivity. Qed.

(** C16 *)
Theorem C16_add_input_rejects_exactly : forall r name d t,
  (snd (ro_add_input r name d t) = false <->
     lookup name (ro_inputs r) <> None \/ name = [] \/ 255 < blen name \/ 255 < blen d) /\
  (snd (ro_add_input r name d t) = false -> fst (ro_add_input r name d t) = r) /\
  (snd (ro_add_input r name d t) = true ->
     ro_dst (fst (ro_add_input r name d t)) = ro_dst r /\
     forall m, lookup m (ro_inputs (fst (ro_add_input r name d t))) =
       if bytes_eqb name m then Some (t :: be_bytes 4 (blen d) ++ d) else lookup m (ro_inputs r)).
Proof.
  intros r n d t. rewrite ro_add_input_cases. unfold call_wf.
  assert (Hn : n = [] <-> blen n < 1).
  { destruct n; [split; intros; [reflexivity|reflexivity]|]. split; [discriminate|]. rewrite blen_cons. pose proof (blen_nonneg n). lia. }
  destruct (Z.leb_spec 1 (blen n)), (Z.leb_spec (blen n) 255), (Z.leb_spec (blen d) 255); cbn [andb snd fst];
    try (split; [split; [intros _; right; rewrite Hn; lia|reflexivity]|split; [reflexivity|discriminate]]).
  destruct (lookup n (ro_inputs r)) eqn:L; cbn [snd fst].
  - split; [split; [intros _; left; discriminate|reflexivity]|split; [reflexivity|discriminate]].
  - split; [split; [discriminate|rewrite Hn; intros [H'|H']; [congruence|lia]]|].
    split; [discriminate|]. intros _. split; [reflexivity|]. intros m. cbn [ro_inputs]. rewrite lookup_insert by exact L.
    unfold enc. cbn [fst snd]. unfold u32. rewrite Z.mod_small by (pose proof (blen_nonneg d); lia). reflexivity.
Qed.
Print Assumptions C16_add_input_rejects_exactly.
Example C16_ex : snd (ro_add_input (new_ro (str "x")) (str "n") (repeat 1 255) ty_bytes) = true /\
  snd (ro_add_input (new_ro (str "x")) (str "n") (repeat 1 256) ty_bytes) = false.
Proof. split; reflexivity. Qed.
