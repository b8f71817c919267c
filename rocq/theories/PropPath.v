(** C90: the chain key binds the whole derivation path and the master key. *)
From Coq Require Import ZArith Lia Bool String List.
From Verif Require Import Base BaseFacts Zmod Fields ModelScalar ModelXmd ModelRo ModelGroup GroupFacts SpecKey ModelKey ProofKey PropKey.
From Verif Require Toy.
Import ListNotations.
Open Scope Z_scope.

Section Path.
Context {X : Oracles} {GO : Grp} {GL : GrpLaws GO}.

(** Spec: what is hashed for the last index of a path: the chain key and the key
    reached before it and the index itself *)
Definition last_call (pk : G) (pre : path) (i : bytes) : bytes * bytes :=
  let '(k, c, _) := spec_chain pre pk (repeat 0 32) in (c, ser k ++ i).
Definition right_half (x : bytes * bytes) : bytes := skipn 32 (hmac512 (fst x) (snd x)).
(** [x] is hashed when the path is derived from [pk] *)
Definition made_by (pk : G) (pa : path) (x : bytes * bytes) : Prop :=
  exists pre i post, pa = pre ++ i :: post /\ x = last_call pk pre i.

Lemma chain_snoc pa : forall i (k : G) c, 
  let '(k1, c1, o1) := spec_chain pa k c in
  spec_chain (pa ++ [i]) k c = (spec_child_key k1 c1 i, spec_R k1 c1 i, o1 + spec_L k1 c1 i).
Proof.
  induction pa as [|j pa IH]; intros i k c.
  - cbn [app spec_chain]. rewrite Z.add_0_r, Z.add_0_l. reflexivity.
  - cbn [app spec_chain]. specialize (IH i (spec_child_key k c j) (spec_R k c j)).
    destruct (spec_chain pa _ _) as [[k1 c1] o1]. rewrite IH. rewrite Z.add_assoc. reflexivity.
Qed.
Lemma chain_key_snoc pk pre i : snd (fst (spec_chain (pre ++ [i]) pk (repeat 0 32))) = right_half (last_call pk pre i).
Proof.
  pose proof (chain_snoc pre i pk (repeat 0 32)) as H. unfold last_call. destruct (spec_chain pre pk (repeat 0 32)) as [[k c] o].
  rewrite H. reflexivity.
Qed.
Lemma made_by_snoc pk pa i x : made_by pk pa x -> made_by pk (pa ++ [i]) x.
Proof. intros (pre & j & post & E & Q). exists pre, j, (post ++ [i]). split; [rewrite E, <- app_assoc; reflexivity|exact Q]. Qed.
Lemma made_by_last pk pa i : made_by pk (pa ++ [i]) (last_call pk pa i).
Proof. exists pa, i, []. auto. Qed.
Lemma app_inj_len {A} (a b c d : list A) : length a = length c -> a ++ b = c ++ d -> a = c /\ b = d.
Proof.
  revert c. induction a as [|x a IH]; intros [|y c] L H; try discriminate L; [auto|].
  cbn [app] in H. assert (x = y) by congruence. assert (E : a ++ b = c ++ d) by congruence. destruct (IH c ltac:(cbn [length] in L; congruence) E) as [-> ->].
  subst y. auto.
Qed.
Lemma child_inj (pk pk' : G) pre pre' i i' : last_call pk pre i = last_call pk' pre' i' ->
  i = i' /\ fst (spec_chain pre pk (repeat 0 32)) = fst (spec_chain pre' pk' (repeat 0 32)).
Proof.
  unfold last_call. destruct (spec_chain pre pk _) as [[k c] o], (spec_chain pre' pk' _) as [[k' c'] o']. intros H. cbn [fst].
  apply pair_equal_spec in H. destruct H as [-> H]. apply app_inj_len in H.
  - destruct H as [H ->]. apply ser_inj in H. subst k'. auto.
  - pose proof (ser_len k). pose proof (ser_len k'). unfold blen in *. lia.
Qed.
Lemma calls_dec (x y : bytes * bytes) : {x = y} + {x <> y}.
Proof. decide equality; apply list_eq_dec, Z.eq_dec. Qed.

Lemma rev_case {A} (l : list A) : l = [] \/ exists a x, l = a ++ [x].
Proof. destruct l as [|y l] using rev_ind; [auto|right; eauto]. Qed.
Lemma chain_binds : forall pa pa' (pk pk' : G),
  snd (fst (spec_chain pa pk (repeat 0 32))) = snd (fst (spec_chain pa' pk' (repeat 0 32))) ->
  (pa = pa' /\ (pa <> [] -> pk = pk')) \/
  (exists x x', made_by pk pa x /\ made_by pk' pa' x' /\ x <> x' /\ right_half x = right_half x') \/
  (exists x, (made_by pk pa x \/ made_by pk' pa' x) /\ right_half x = repeat 0 32).
Proof.
  intros pa. induction pa as [|i pa IH] using rev_ind; intros pa' pk pk' H; destruct (rev_case pa') as [->|(pre' & i' & ->)].
  - left. split; [reflexivity|]. intros Q. contradiction.
  - right. right. rewrite chain_key_snoc in H. exists (last_call pk' pre' i'). split; [right; apply made_by_last|]. rewrite <- H. reflexivity.
  - right. right. rewrite chain_key_snoc in H. exists (last_call pk pa i). split; [left; apply made_by_last|]. rewrite H. reflexivity.
  - rewrite !chain_key_snoc in H. destruct (calls_dec (last_call pk pa i) (last_call pk' pre' i')) as [E|N].
    + apply child_inj in E. destruct E as [-> E]. destruct (IH pre' pk pk') as [[-> Q]|[(x & x' & M & M' & C)|(x & M & C)]].
      * rewrite E. reflexivity.
      * left. split; [reflexivity|]. intros _. destruct pre' as [|j l]; [|apply Q; discriminate].
        apply (f_equal fst) in E. exact E.
      * right. left. exists x, x'. split; [apply made_by_snoc, M|]. split; [apply made_by_snoc, M'|exact C].
      * right. right. exists x. split; [|exact C]. destruct M as [M|M]; [left|right]; apply made_by_snoc, M.
    + right. left. exists (last_call pk pa i), (last_call pk' pre' i'). split; [apply made_by_last|]. split; [apply made_by_last|]. auto.
Qed.
End Path.

(** Two derivations that end in the same chain key are along the same path and,
    unless it is empty, from the same master key; or among the calls they make
    are two different ones with the same right half, or one whose right half is
    zero.  (The derived keys need not even be equal.) *)
Theorem C90_chain_key_binds_path :
  forall (X : Oracles) (HX : oracles_ok X) (GO : Grp) (GL : GrpLaws GO) pk pk' pa pa' d d' ch,
  derive_public_key (ser pk) pa = Ok (d, ch) -> derive_public_key (ser pk') pa' = Ok (d', ch) ->
  (pa = pa' /\ (pa <> [] -> pk = pk')) \/
  (exists x x', made_by pk pa x /\ made_by pk' pa' x' /\ x <> x' /\ right_half x = right_half x') \/
  (exists x, (made_by pk pa x \/ made_by pk' pa' x) /\ right_half x = repeat 0 32).
Proof.
  intros X HX GO GL pk pk' pa pa' d d' ch H H'.
  assert (S : forall pk pa d, derive_public_key (ser pk) pa = Ok (d, ch) -> snd (fst (spec_chain pa pk (repeat 0 32))) = ch).
  { clear -HX GL. intros pk pa d H. destruct (C47_outcomes X HX GO GL (ser pk) pa) as [O _]. destruct (O pk (deser_ser pk)) as [(t & c & T & E)|E]; [|congruence].
    destruct (C47_derived_key_is_chain_of_children X HX GO GL _ _ _ _ T) as (k & o & C & _). rewrite C. cbn [fst snd]. congruence. }
  apply chain_binds. rewrite (S _ _ _ H), (S _ _ _ H'). reflexivity.
Qed.
Print Assumptions C90_chain_key_binds_path.

(** test values: the toy HMAC is a sum of bytes, so the paths [1; 2] and [3; 0]
    of single bytes meet; the colliding calls are exhibited *)
Import Toy.
Definition ex_pk : @G toyG := of_Z q 5.
Example C90_ex : exists d d' ch, derive_public_key (ser ex_pk) [[1; 2]] = Ok (d, ch) /\ derive_public_key (ser ex_pk) [[3; 0]] = Ok (d', ch).
Proof.
  assert (E : derive_public_key (ser ex_pk) [[1; 2]] = derive_public_key (ser ex_pk) [[3; 0]]) by (vm_compute; reflexivity).
  assert (O : is_ok (derive_public_key (ser ex_pk) [[1; 2]]) = true) by (vm_compute; reflexivity).
  destruct (derive_public_key (ser ex_pk) [[1; 2]]) as [[d ch]| | |]; try discriminate O. exists d, d, ch. auto.
Qed.
Example C90_ex_calls : let x := last_call ex_pk [] [1; 2] in let x' := last_call ex_pk [] [3; 0] in
  made_by ex_pk [[1; 2]] x /\ made_by ex_pk [[3; 0]] x' /\ x <> x' /\ right_half x = right_half x'.
Proof.
  split; [apply (made_by_last ex_pk [])|]. split; [apply (made_by_last ex_pk [])|]. split; [|vm_compute; reflexivity].
  intros E. apply child_inj in E. destruct E as [E _]. discriminate E.
Qed.
Example C90_ex_distinct : match derive_public_key (ser ex_pk) [[1]], derive_public_key (ser ex_pk) [[2]] with
  | Ok (_, c), Ok (_, c') => negb (bytes_eqb c c') | _, _ => false end = true.
Proof. vm_compute. reflexivity. Qed.
