(** C99: random subsets of the signature shares sign exactly from the threshold on. *)
From Coq Require Import ZArith Lia Bool String List.
From Verif Require Import Base BaseFacts Zmod Fields ModelScalar ModelXmd ModelRo ProofRand ProofZk SpecPoly ModelPoly ProofPoly ModelGroup GroupFacts SpecGroup ModelCommit
  ModelZk ModelMega ModelDealing SpecDealing ProofDealing ProofTranscript ModelComplaint ModelKey ModelSign SpecSign ProofSign PropKey PropSign
  ModelProtocol ProofProtocol ProofHonest ProofRun ProofCorrupt PropProtocol ModelSubset.
From Verif Require Toy ToyShort.
Import ListNotations.
Open Scope Z_scope.

Section Facts.
Context {X : Oracles} (HX : oracles_ok X).
Context {A : Type}.
Lemma zset_new k (a : A) l : zlookup k l = None -> length (zset k a l) = S (length l).
Proof.
  induction l as [|[i b] l IH]; intros H; [reflexivity|]. cbn [zlookup] in H. cbn [zset]. destruct (k <? i); [reflexivity|].
  destruct (k =? i) eqn:E; [discriminate|]. cbn [length]. f_equal. apply IH, H.
Qed.
Lemma subset_loop_ok (shares : list (Z * A)) include : forall fuel acc rn r, asc acc -> incl acc shares -> subset_loop fuel shares acc include rn = Ok r ->
  asc r /\ incl r shares /\ Z.of_nat (length r) = include.
Proof.
  induction fuel as [|fuel IH]; intros acc rn r Ha Hi H; cbn [subset_loop] in H;
    destruct (Z.eqb_spec (Z.of_nat (length acc)) include) as [E|E]; try (apply Ok_inj in H; subst r; auto); destruct shares as [|e0 sh] eqn:Es; try discriminate.
  rewrite <- Es in *. destruct (rng_uint32 rn) as [u rn1]. apply bind_inv in H. destruct H as (e & Ee & H).
  assert (Hin : In e shares). { unfold nth_or_panic in Ee. destruct (nth_error shares _) eqn:En in Ee; [|discriminate]. apply Ok_inj in Ee. subst e. apply (nth_error_In _ _ En). }
  destruct (zlookup (fst e) acc) as [v|]; apply IH in H; try assumption.
  - apply zset_asc, Ha.
  - intros e' He'. apply zset_in in He'. destruct He' as [->|He']; [destruct e; exact Hin|apply Hi, He'].
Qed.
(** more than there are, or a negative number: never *)
Lemma subset_loop_not (shares : list (Z * A)) include : include < 0 \/ Z.of_nat (length shares) < include -> NoDup (map fst shares) -> shares <> [] ->
  forall fuel acc rn, asc acc -> incl acc shares -> subset_loop fuel shares acc include rn = Diverge.
Proof.
  intros Hb Nd Hn. induction fuel as [|fuel IH]; intros acc rn Ha Hi; cbn [subset_loop].
  all: assert (L : (length acc <= length shares)%nat) by (apply NoDup_incl_length; [apply (NoDup_map_inv fst), asc_nodup, Ha|exact Hi]).
  all: destruct (Z.eqb_spec (Z.of_nat (length acc)) include) as [E|E]; [exfalso; lia|].
  all: destruct shares as [|e0 sh] eqn:Es; [congruence|]; rewrite <- Es in *; clear Es; try reflexivity.
  destruct (rng_uint32 rn) as [u rn1] eqn:Eu.
  assert (Lz : 0 < Z.of_nat (length shares)) by (destruct shares; [congruence|cbn [length]; lia]).
  assert (U : 0 <= u) by (change u with (fst (u, rn1)); rewrite <- Eu; apply (uint32_nonneg HX)).
  destruct (nth_error shares (Z.to_nat (Z.rem u (Z.of_nat (length shares))))) as [e|] eqn:En.
  2:{ apply nth_error_None in En. pose proof (Z.rem_bound_pos u (Z.of_nat (length shares)) U Lz). lia. }
  unfold nth_or_panic. rewrite En, bind_Ok. apply nth_error_In in En. destruct (zlookup (fst e) acc); apply IH; try assumption.
  - apply zset_asc, Ha.
  - intros e' He'. apply zset_in in He'. destruct He' as [->|He']; [destruct e; exact En|apply Hi, He'].
Qed.
Lemma subset_loop_cases (shares : list (Z * A)) include : shares <> [] -> forall fuel acc rn,
  (exists r, subset_loop fuel shares acc include rn = Ok r) \/ subset_loop fuel shares acc include rn = Diverge.
Proof.
  intros Hn. induction fuel as [|fuel IH]; intros acc rn; cbn [subset_loop];
    destruct (Z.of_nat (length acc) =? include); eauto; destruct shares as [|e0 sh] eqn:Es; try congruence; rewrite <- Es in *; clear Es; auto.
  destruct (rng_uint32 rn) as [u rn1] eqn:Eu.
  assert (Lz : 0 < Z.of_nat (length shares)) by (destruct shares; [congruence|cbn [length]; lia]).
  assert (U : 0 <= u) by (change u with (fst (u, rn1)); rewrite <- Eu; apply (uint32_nonneg HX)).
  destruct (nth_error shares (Z.to_nat (Z.rem u (Z.of_nat (length shares))))) as [e|] eqn:En.
  2:{ apply nth_error_None in En. pose proof (Z.rem_bound_pos u (Z.of_nat (length shares)) U Lz). lia. }
  unfold nth_or_panic. rewrite En, bind_Ok. destruct (zlookup (fst e) acc); apply IH.
Qed.
Lemma random_subset_loop : exists rn, forall fuel (shares : list (Z * A)) include, random_subset fuel shares include = subset_loop fuel shares [] include rn.
Proof.
  destruct (seed_from_rng_total HX (mkrng (repeat 0 32) 0)) as (sd & rn & E & L). exists (mkrng sd 0). intros fuel shares include.
  unfold random_subset, random_seed. rewrite E, !bind_Ok. cbn [fst]. rewrite seed_rng_ok by exact L. rewrite bind_Ok. reflexivity.
Qed.
End Facts.

(** C99: what RandomSubset gives for any map of shares: a part with the wanted
    number of entries; a wrong number is never reached, and an empty map makes
    it divide by zero *)
Theorem C99_random_subset :
  forall (X : Oracles) (HX : oracles_ok X) (A : Type) (fuel : nat) (shares : list (Z * A)) include, NoDup (map fst shares) ->
  (forall sub, random_subset fuel shares include = Ok sub -> incl sub shares /\ NoDup (map fst sub) /\ Z.of_nat (length sub) = include) /\
  (shares <> [] -> (exists sub, random_subset fuel shares include = Ok sub) \/ random_subset fuel shares include = Diverge) /\
  (shares <> [] -> include < 0 \/ Z.of_nat (length shares) < include -> random_subset fuel shares include = Diverge) /\
  (shares = [] -> random_subset fuel shares include = if include =? 0 then Ok [] else Panic).
Proof.
  intros X HX A fuel shares include Nd. destruct (@random_subset_loop X HX A) as [rn E]. rewrite E. split; [|split; [|split]].
  - intros sub H. apply subset_loop_ok in H; [|constructor|intros e []]. destruct H as (Ha & Hi & L). split; [exact Hi|]. split; [apply asc_nodup, Ha|exact L].
  - intros Hn. apply (subset_loop_cases HX shares include Hn).
  - intros Hn Hb. apply (subset_loop_not HX shares include Hb Nd Hn); [constructor|intros e []].
  - intros ->. rewrite (Z.eqb_sym include). destruct fuel; cbn [subset_loop length]; change (Z.of_nat 0) with 0; destruct (0 =? include); reflexivity.
Qed.
Print Assumptions C99_random_subset.

(** the test that is commented out at testutils/protocol_test.go:156-168: after a
    finished setup, a random subset of the shares below the threshold is refused,
    one from the threshold on gives the one signature that all shares give, and
    it verifies unless degenerate *)
Theorem C99_subsets_sign :
  forall (X : Oracles) (HX : oracles_ok X) (GO : Grp) (GL : GrpLaws GO) (cbor_cm : commitment -> bytes)
    (n th nc : Z) (seed : bytes) s pa message beacon shares fuel include sub,
  n <= 2^63 -> new_sig_setup cbor_cm n th nc seed = Ok s -> generate_shares s pa message beacon = Ok shares ->
  random_subset fuel shares include = Ok sub ->
  (include < th -> generate_signature s pa message beacon sub = Err) /\
  (th <= include -> exists sg, generate_signature s pa message beacon sub = Ok sg /\ generate_signature s pa message beacon shares = Ok sg /\
     (sg_r sg <> fzero -> sg_s sg <> fzero ->
       exists pk, verify_signature s pa message beacon sg = Ok pk /\ spec_ecdsa pk (bits2int (sha256 message)) (sg_r sg) (sg_s sg))).
Proof.
  intros X HX GO GL cb n th nc seed s pa message beacon shares fuel include sub Hn Hs Hg Hr. pose proof Hs as Hs0.
  apply (new_sig_setup_inv HX cb _ _ _ _ _ Hn) in Hs.
  destruct Hs as (px & mx & pk & mk & pl & ml & pxl & mxl & pkl & mkl & Et & En & Hp & R1 & R2 & R3 & R4 & R5 & C2 & S4 & S5).
  pose proof Hg as Hg0. unfold generate_shares in Hg. rewrite En in Hg. destruct (Z.ltb_spec n 0); [lia|]. rewrite bind_Ok in Hg.
  destruct (share_loop_inv s pa _ _ _ _ _ _ _ _ _ _ R3 R4 R5 _ _ Hg) as [Kf Hsh].
  assert (Nd : NoDup (map fst shares)). { rewrite Kf. apply FinFun.Injective_map_NoDup; [intros a b; lia|apply seq_NoDup]. }
  destruct (C99_random_subset X HX _ fuel shares include Nd) as (Q & _). destruct (Q sub Hr) as (Hi & Ns & Ls). split.
  - intros Hl. unfold generate_signature, combine_sig. rewrite Et, Ls. destruct (Z.ltb_spec include th); [reflexivity|lia].
  - intros Hl. destruct (C59_run_ends_in_ecdsa_signature X HX GO GL cb n th nc seed s pa message beacon shares sub Hn Hs0 Hg0 Hi Ns ltac:(lia)) as (sg & E & V).
    exists sg. split; [exact E|]. split; [|exact V].
    assert (Kp : forall l, incl l shares -> NoDup (map fst l) -> keys_ok l).
    { intros l Hl' Nl. split; [|exact Nl]. apply Forall_forall. intros k Hin. apply in_map_iff in Hin. destruct Hin as ([k' e] & <- & Hin). apply Hl' in Hin.
      apply (in_map fst) in Hin. rewrite Kf in Hin. apply in_map_iff in Hin. destruct Hin as (i & <- & Hin). apply in_seq in Hin. unfold int64_ok. lia. }
    assert (L : forall m (po mo : poly) r, rinv (Z.to_nat n) th m po mo r -> Z.of_nat (length po) <= th).
    { intros m po mo r (Hth & l & _ & _ & (_ & Lp & _) & _). lia. }
    assert (Hth : 0 < th) by (destruct R1 as [R1 _]; exact R1).
    assert (Le : (length sub <= length shares)%nat) by (apply NoDup_incl_length; [apply (NoDup_map_inv fst), Ns|exact Hi]).
    destruct (C51_signature_independent_of_signers X HX GO GL pa (sha256 message) beacon (rd_transcript (ps_key s)) (rd_transcript (ps_kappa s)) th pl pkl pxl sub shares
      (Kp _ Hi Ns) (Kp _ (incl_refl _) Nd) Hth ltac:(lia) ltac:(lia) (L _ _ _ _ R3) (L _ _ _ _ R5) (L _ _ _ _ R4)) as (sg' & E1 & E2).
    + intros i e Hin. apply Hsh, Hi, Hin.
    + intros i e Hin. apply Hsh, Hin.
    + unfold generate_signature in *. rewrite Et in *. congruence.
Qed.
Print Assumptions C99_subsets_sign.

(** test values *)
Section Ex.
Existing Instance ToyShort.shortX.
Example C99_ex : match random_subset 20 [(0, 10); (1, 11); (2, 12)] 2 with Ok [_; _] => true | _ => false end = true.
Proof. vm_compute. reflexivity. Qed.
Example C99_ex_all : random_subset 20 [(4, 10)] 1 = Ok [(4, 10)] /\ random_subset 20 [(4, 10)] 2 = Diverge /\ random_subset (A := Z) 20 [] 1 = Panic.
Proof. vm_compute. auto. Qed.
End Ex.
