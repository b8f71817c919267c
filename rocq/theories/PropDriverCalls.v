(** C107 for the setups that the rounds and the signing drivers run on. *)
From Coq Require Import ZArith Lia Bool String List.
From Verif Require Import Base BaseFacts Zmod Fields ModelScalar ModelXmd ModelRo ProofRand ModelPoly ModelGroup GroupFacts SpecGroup ModelCommit
  ModelMega ProofMega ModelDealing ProofDealing ProofTranscript ProofSign ModelComplaint ProofDecimal ModelProtocol ModelSetup PropSetup.
From Verif Require Toy ToyShort.
Import ListNotations.
Open Scope Z_scope.

(** Spec: calls one after the other, all of which succeed, with the seeds handed out *)
Inductive called {X : Oracles} {GO : Grp} : setup -> list call -> list bytes -> setup -> Prop :=
| called_nil su : called su [] [] su
| called_remove su su1 su2 k cs l : remove_nodes su k = Ok su1 -> called su1 cs l su2 -> called su (Remove k :: cs) l su2
| called_threshold su su2 t cs l : called (modify_threshold su t) cs l su2 -> called su (Threshold t :: cs) l su2
| called_seed su su1 su2 s cs l : next_dealing_seed su = Ok (s, su1) -> called su1 cs l su2 -> called su (NextSeed :: cs) (s :: l) su2.

Section Facts.
Context {X : Oracles} {GO : Grp}.
(** what is kept by calls: the nodes listed are the first ones *)
Definition keeps (sk : list Fq) (su : setup) : Prop :=
  0 <= su_receivers su <= Z.of_nat (length sk) /\ su_sk su = firstn (Z.to_nat (su_receivers su)) sk /\
  su_pk su = map mul_by_g (firstn (Z.to_nat (su_receivers su)) sk).

Lemma keeps_remove sk su su1 k : keeps sk su -> remove_nodes su k = Ok su1 -> keeps sk su1 /\ su_receivers su1 = su_receivers su - k /\
  su_threshold su1 = su_threshold su /\ su_ad su1 = su_ad su /\ su_seed su1 = su_seed su /\ su_round su1 = su_round su.
Proof.
  intros (B & S & P) H. unfold remove_nodes in H. destruct (_ || _) eqn:C in H; [discriminate|]. injection H as <-. cbn.
  apply orb_false_iff in C. destruct C as [C1 C2]. apply Z.ltb_ge in C1, C2. rewrite P, map_length, firstn_length in C2.
  split; [|repeat split]. unfold keeps. cbn. split; [lia|]. rewrite S, P, firstn_map, firstn_firstn, Nat.min_l by lia. auto.
Qed.

Lemma called_state sk : forall su cs l su2, called su cs l su2 -> keeps sk su ->
  keeps sk su2 /\ su_receivers su2 = su_receivers su - removed cs /\ su_threshold su2 = last_threshold (su_threshold su) cs /\ su_ad su2 = su_ad su /\
  su_seed su2 = su_seed su /\ su_round su2 = su_round su + rounds cs /\ Z.of_nat (length l) = rounds cs /\
  (forall i s, nth_error l i = Some s -> seed_derive (su_seed su) (str "ic-crypto-tecdsa-round-" ++ decimal (su_round su + Z.of_nat i)) = Ok s).
Proof.
  intros su cs l su2 H. induction H as [su|su su1 su2 k cs l R H IH|su su2 t cs l H IH|su su1 su2 s cs l N H IH]; intros K; cbn [removed rounds last_threshold].
  - rewrite Z.sub_0_r, Z.add_0_r. do 7 (split; [auto|]). intros [|i] s E; discriminate.
  - destruct (keeps_remove _ _ _ _ K R) as (K1 & E1 & E2 & E3 & E4 & E5). destruct (IH K1) as (K2 & F1 & F2 & F3 & F4 & F5 & F6 & F7).
    rewrite E1 in F1. rewrite E2 in F2. rewrite E3 in F3. rewrite E4 in F4, F7. rewrite E5 in F5, F7. repeat (split; [auto; lia|]). exact F7.
  - destruct (IH K) as (K2 & F1 & F2 & F3 & F4 & F5 & F6 & F7). repeat (split; [auto|]). exact F7.
  - unfold next_dealing_seed in N. destruct (seed_derive (su_seed su) (round_dst (su_round su))) as [s'| | |] eqn:Es; cbn [bind] in N; try discriminate.
    injection N as <- <-. destruct (IH K) as (K2 & F1 & F2 & F3 & F4 & F5 & F6 & F7). cbn in F1, F2, F3, F4, F5, F7.
    split; [exact K2|]. split; [exact F1|]. split; [exact F2|]. split; [exact F3|]. split; [exact F4|]. split; [lia|]. split; [cbn [length]; lia|].
    intros [|i] s E; cbn [nth_error] in E.
    + injection E as <-. cbn [Z.of_nat]. rewrite Z.add_0_r. exact Es.
    + replace (su_round su + Z.of_nat (S i)) with (su_round su + 1 + Z.of_nat i) by lia. apply F7, E.
Qed.
End Facts.

(** After any calls that succeed on a new setup: threshold, number of nodes, the
    nodes listed, and the seeds handed out, the i-th of them derived for round i. *)
Theorem C107_driver_calls : forall (X : Oracles) (GO : Grp) n th seed su sk cs l su',
  new_setup n th seed = Ok su -> receiver_info su = Ok (nodes sk n) -> called su cs l su' ->
  su_threshold su' = last_threshold th cs /\ su_receivers su' = n - removed cs /\ 0 <= n - removed cs <= n /\ su_ad su' = su_ad su /\
  receiver_info su' = Ok (nodes sk (n - removed cs)) /\ Z.of_nat (length l) = rounds cs /\
  (forall i s, nth_error l i = Some s -> seed_derive seed (str "ic-crypto-tecdsa-round-" ++ decimal (Z.of_nat i)) = Ok s).
Proof.
  intros X GO n th seed su sk0 cs l su' H0 H1 H.
  assert (Info : forall sk su, keeps sk su -> receiver_info su = Ok (nodes sk (su_receivers su))).
  { clear. intros sk su (B & S & P). unfold receiver_info, go_make, nodes. destruct (Z.ltb_spec (su_receivers su) 0) as [Hn|_]; [lia|]. cbn [bind].
    assert (A : forall is, (forall i, In i is -> (i < Z.to_nat (su_receivers su))%nat) ->
       mapM (fun i => do a <- nth_or_panic (su_sk su) i; do b <- nth_or_panic (su_pk su) i; Ok (a, b, Z.of_nat i)) is =
       Ok (map (fun i => (nth i sk fzero, smul (nth i sk fzero) genG, Z.of_nat i)) is)).
    { induction is as [|i is IH]; intros Hi; [reflexivity|]. cbn [mapM map]. rewrite IH by (intros; apply Hi; right; auto).
      assert (L : (i < Z.to_nat (su_receivers su))%nat) by (apply Hi; left; auto).
      assert (N : nth_error (firstn (Z.to_nat (su_receivers su)) sk) i = Some (nth i sk fzero)).
      { rewrite (nth_error_nth' _ fzero) by (rewrite firstn_length; lia). f_equal. rewrite <- (firstn_skipn (Z.to_nat (su_receivers su)) sk) at 2.
        rewrite app_nth1 by (rewrite firstn_length; lia). reflexivity. }
      unfold nth_or_panic. rewrite S, P, nth_error_map, N. reflexivity. }
    apply A. intros i Hi. apply in_seq in Hi. lia. }
  unfold new_setup in H0. destruct (seed_rng seed) as [rn| | |]; cbn [bind] in H0; try discriminate. destruct (fill_uint8 rn (repeat 0 32)) as [ad rn1].
  destruct (go_make n) as [k| | |] eqn:Eg; cbn [bind] in H0; try discriminate. destruct (random_scalars k rn1) as [[sk r]| | |] eqn:E; cbn [bind] in H0; try discriminate.
  destruct (random_scalars_drawn _ _ _ _ E) as [_ Ls]. unfold go_make in Eg. destruct (Z.ltb_spec n 0) as [Hn|Hn]; [discriminate|]. apply Ok_inj in Eg. apply Ok_inj in H0. subst k su.
  assert (K : keeps sk (mksetup th n ad (map mul_by_g sk) sk seed 0)).
  { unfold keeps. cbn. rewrite <- Ls, firstn_all. split; [lia|auto]. }
  cbn [fst] in *. rewrite (Info _ _ K) in H1. cbn [su_receivers] in H1.
  destruct (called_state _ _ _ _ _ H K) as (K2 & F1 & F2 & F3 & F4 & F5 & F6 & F7). cbn [su_receivers su_threshold su_ad su_seed su_round] in *.
  assert (R : 0 <= n - removed cs <= n) by (destruct K2 as (R & _); lia).
  split; [exact F2|]. split; [exact F1|]. split; [exact R|]. split; [exact F3|]. split.
  - rewrite (Info _ _ K2), F1. f_equal. apply Ok_inj in H1. unfold nodes in *. apply map_ext_in. intros i Hi. apply in_seq in Hi.
    assert (Hi' : In i (seq 0 (Z.to_nat n))) by (apply in_seq; lia). apply (ext_in_map H1) in Hi'. exact Hi'.
  - split; [exact F6|]. intros i s Es. apply (F7 i s Es).
Qed.
Print Assumptions C107_driver_calls.

(** test values: a seed, one node removed, another threshold, another seed *)
Section Ex.
Existing Instance ToyShort.shortX.
Existing Instance Toy.toyG.
Example C107_ex_driver : exists su l su', new_setup 3 5 ex_seed = Ok su /\
  called su [NextSeed; Remove 1; Threshold 2; NextSeed] l su'.
Proof.
  assert (H : is_ok (do su <- new_setup 3 5 ex_seed; do a <- next_dealing_seed su; do b <- remove_nodes (snd a) 1;
                     next_dealing_seed (modify_threshold b 2)) = true) by (vm_compute; reflexivity).
  destruct (new_setup 3 5 ex_seed) as [su| | |] eqn:E; cbn [bind] in H; try discriminate.
  destruct (next_dealing_seed su) as [[s su1]| | |] eqn:E1; cbn [bind snd] in H; try discriminate.
  destruct (remove_nodes su1 1) as [su2| | |] eqn:E2; cbn [bind] in H; try discriminate.
  destruct (next_dealing_seed (modify_threshold su2 2)) as [[s' su3]| | |] eqn:E3; try discriminate.
  exists su, [s; s'], su3. split; [reflexivity|]. eapply called_seed; [exact E1|]. eapply called_remove; [exact E2|]. apply called_threshold.
  eapply called_seed; [exact E3|]. apply called_nil.
Qed.
End Ex.
