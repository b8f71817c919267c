(** C44, continued: what CombineOpenings does with a list of dealer indices that is not as long as the list of openings *)
From Coq Require Import ZArith Lia Bool String List.
From Verif Require Import Base BaseFacts Zmod Fields ModelScalar ModelXmd ModelRo ModelPoly ModelGroup GroupFacts ModelCommit ModelMega
  ModelDealing ToyShort Toy.
Import ListNotations.
Local Open Scope Z_scope.

Section Indices.
Context (X : Oracles) (GO : Grp).
Lemma zip_simple_short vs : forall ixs, (length ixs < length vs)%nat -> zip_simple ixs (map OSimple vs) = Panic.
Proof.
  induction vs as [|v vs IH]; intros ixs H; [cbn in H; lia|]. destruct ixs as [|i ixs]; [reflexivity|].
  cbn [map zip_simple]. rewrite IH by (cbn in H; lia). reflexivity.
Qed.
Lemma zip_pedersen_short vs : forall ixs, (length ixs < length vs)%nat ->
  zip_pedersen ixs (map (fun e => OPedersen (fst e) (snd e)) vs) = Panic.
Proof.
  induction vs as [|v vs IH]; intros ixs H; [cbn in H; lia|]. destruct ixs as [|i ixs]; [reflexivity|].
  cbn [map zip_pedersen]. rewrite IH by (cbn in H; lia). reflexivity.
Qed.
Lemma zip_simple_spare os : forall ixs more, length ixs = length os -> zip_simple (ixs ++ more) os = zip_simple ixs os.
Proof.
  induction os as [|o os IH]; intros [|i ixs] more H; try discriminate; [destruct more; reflexivity|].
  cbn [app zip_simple]. rewrite IH by (cbn in H; lia). reflexivity.
Qed.
Lemma zip_pedersen_spare os : forall ixs more, length ixs = length os -> zip_pedersen (ixs ++ more) os = zip_pedersen ixs os.
Proof.
  induction os as [|o os IH]; intros [|i ixs] more H; try discriminate; [destruct more; reflexivity|].
  cbn [app zip_pedersen]. rewrite IH by (cbn in H; lia). reflexivity.
Qed.
End Indices.

(** Openings of the right kind with fewer indices crash the caller, whatever the openings are worth *)
Theorem C44_too_few_indices_crash : forall (X : Oracles) (GO : Grp) ixs l receiver,
  (forall vs, (length ixs < length vs)%nat -> combine_openings ixs (map OSimple vs) (CInterp (CSimple l)) receiver = Panic) /\
  (forall vs, (length ixs < length vs)%nat ->
     combine_openings ixs (map (fun e => OPedersen (fst e) (snd e)) vs) (CInterp (CPedersen l)) receiver = Panic).
Proof.
  intros X GO ixs l receiver. split; intros vs H; unfold combine_openings.
  - rewrite zip_simple_short by exact H. reflexivity.
  - rewrite zip_pedersen_short by exact H. reflexivity.
Qed.
Print Assumptions C44_too_few_indices_crash.
(** Spare indices are ignored, and a sum does not look at the indices at all *)
Theorem C44_spare_indices_ignored : forall (X : Oracles) (GO : Grp) os receiver,
  (forall ixs more tc, length ixs = length os -> combine_openings (ixs ++ more) os tc receiver = combine_openings ixs os tc receiver) /\
  (forall ixs ixs' c, combine_openings ixs os (CSum c) receiver = combine_openings ixs' os (CSum c) receiver).
Proof.
  intros X GO os receiver. split.
  - intros ixs more tc H. unfold combine_openings. destruct tc as [| | |c|]; try reflexivity.
    destruct c; try reflexivity; [rewrite zip_simple_spare by exact H|rewrite zip_pedersen_spare by exact H]; reflexivity.
  - intros. reflexivity.
Qed.
Print Assumptions C44_spare_indices_ignored.
(** two openings and one index crash; the first equation of the second theorem is met by one opening and two indices *)
Example C44_ex_short_indices : forall v w l,
  combine_openings (GO := toyG) [3] [OSimple v; OSimple w] (CInterp (CSimple l)) 0 = Panic.
Proof.
  intros. apply (proj1 (C44_too_few_indices_crash shortX toyG [3] l 0) [v; w]). cbn. lia.
Qed.
Example C44_ex_spare : forall v l,
  combine_openings (GO := toyG) [3; 5] [OSimple v] (CInterp (CSimple l)) 0 =
  combine_openings (GO := toyG) [3] [OSimple v] (CInterp (CSimple l)) 0.
Proof.
  intros. apply (proj1 (C44_spare_indices_ignored shortX toyG [OSimple v] 0) [3] [5]). reflexivity.
Qed.
