(** C113: the seeds of the dealers in a round. *)
From Coq Require Import ZArith Lia Bool String List.
From Verif Require Import Base BaseFacts Zmod Fields ModelScalar ModelXmd ModelRo ProofRand ProofZk ProofTranscript ModelPoly ModelGroup
  ModelCommit ModelZk ModelMega ModelDealing ModelComplaint ProofSign ModelProtocol ProofProtocol.
From Verif Require Import Toy ToyShort.
Import ListNotations.
Open Scope Z_scope.

(** the dealing [d] was dealt by number [k] with the seed made of the [k]-th 32
    bytes of the key stream, and later at most its encrypted shares changed *)
Definition dealt_with {X : Oracles} {GO : Grp} (su : setup) (sh : list shares) (key : bytes) (k : Z) (d : dealing) : Prop :=
  0 <= k /\ exists s sd d0, nth_error sh (Z.to_nat k) = Some s /\
    new_seed (map (keystream key) (seq (32 * Z.to_nat k) 32)) (str "ic-crypto-seed-from-rng") = Ok sd /\
    new_dealing s sd (su_threshold su) (su_pk su) k (su_ad su) = Ok d0 /\
    d_cm d = d_cm d0 /\ d_proof d = d_proof d0 /\
    match d_ct d, d_ct d0 with
    | MSingle e p pf _, MSingle e0 p0 pf0 _ | MPair e p pf _, MPair e0 p0 pf0 _ => e = e0 /\ p = p0 /\ pf = pf0
    | MNil, MNil => True
    | _, _ => False
    end.

Section Facts.
Context {X : Oracles} {GO : Grp}.
Lemma deal_seeds su op key sh : forall pre i ds rn', i = Z.of_nat (length pre) -> deal_loop su op i sh (mkrng key (32 * length pre)) = Ok (ds, rn') ->
  forall k d, In (k, d) ds -> dealt_with su (pre ++ sh) key k d.
Proof.
  induction sh as [|s sh IH]; intros pre i ds rn' Hi H; cbn [deal_loop] in H.
  - apply Ok_inj in H. apply (f_equal fst) in H. cbn [fst] in H. subst ds. intros k d [].
  - unfold seed_from_rng in H. rewrite fill_zero in H. cbn [bind] in H.
    change (ks_bytes (mkrng key (32 * length pre)) 32) with (map (fun j => keystream key j) (seq (32 * length pre) 32)) in H.
    destruct (new_seed (map (fun j => keystream key j) (seq (32 * length pre) 32)) from_rng_dst) as [sd| | |] eqn:Es; cbn [bind] in H; try discriminate.
    destruct (new_dealing s sd (su_threshold su) (su_pk su) i (su_ad su)) as [d0| | |] eqn:Ed; cbn [bind] in H; try discriminate.
    destruct (test_public su d0 op i); cbn [bind] in H; try discriminate.
    destruct (receiver_info su) as [ri| | |]; cbn [bind] in H; try discriminate.
    destruct (mapM _ ri); cbn [bind] in H; try discriminate.
    unfold rng_skip in H. cbn [rng_key rng_pos] in H. replace (32 * length pre + 32)%nat with (32 * length (pre ++ [s]))%nat in H by (rewrite app_length; cbn [length]; lia).
    destruct (deal_loop su op (i + 1) sh (mkrng key (32 * length (pre ++ [s])))) as [[r rn2]| | |] eqn:Er; cbn [bind] in H; try discriminate.
    assert (I : forall k d, In (k, d) r -> dealt_with su (pre ++ s :: sh) key k d).
    { intros k d Hin. replace (pre ++ s :: sh) with ((pre ++ [s]) ++ sh) by (rewrite <- app_assoc; reflexivity).
      apply (IH (pre ++ [s]) (i + 1) r rn2); [rewrite app_length; cbn [length]; lia|exact Er|exact Hin]. }
    apply Ok_inj in H. apply (f_equal fst) in H. cbn [fst] in H. intros k d Hin. subst ds. destruct ri; [now apply I|].
    destruct Hin as [Hin|Hin]; [|now apply I]. injection Hin as <- <-. split; [lia|]. subst i. rewrite Nat2Z.id. exists s, sd, d0.
    split; [rewrite nth_error_app2, Nat.sub_diag by lia; reflexivity|]. split; [exact Es|]. split; [exact Ed|]. split; [reflexivity|]. split; [reflexivity|].
    destruct (d_ct d0); auto.
Qed.
Lemma corrupt_keeps su sh key k d ts seed bad : dealt_with su sh key k d -> corrupt_dealing d ts seed = Ok bad -> dealt_with su sh key k bad.
Proof.
  intros (Hk & s & sd & d0 & E1 & E2 & E3 & Ec & Ep & Em) H. unfold corrupt_dealing in H.
  destruct (c_curve (d_cm d)); cbn [bind] in H; try discriminate. destruct (seed_rng seed); cbn [bind] in H; try discriminate.
  destruct (random_scalar _) as [x| | |]; cbn [bind] in H; try discriminate.
  split; [exact Hk|]. exists s, sd, d0. split; [exact E1|]. split; [exact E2|]. split; [exact E3|].
  destruct (d_ct d) as [e p pf ct|e p pf ct|].
  - destruct (update_all _ _ ct) as [ct'| | |]; cbn [bind] in H; try discriminate. apply Ok_inj in H. subst bad. auto.
  - destruct (update_all _ _ ct) as [ct'| | |]; cbn [bind] in H; try discriminate. apply Ok_inj in H. subst bad. auto.
  - apply Ok_inj in H. subst bad. auto.
Qed.
Lemma damage_in (ds : list (Z * dealing)) : forall fuel acc num rn r rn', damage_loop fuel ds acc num rn = Ok (r, rn') -> (forall e, In e acc -> In e ds) -> forall e, In e r -> In e ds.
Proof.
  induction fuel as [|fuel IH]; intros acc num rn r rn' H A; cbn [damage_loop] in H; (destruct (num <=? _); [apply Ok_inj in H; apply (f_equal fst) in H; cbn [fst] in H; subst r; exact A|]).
  - discriminate.
  - destruct ds as [|x ds0] eqn:Ed; [discriminate|]. rewrite <- Ed in *. destruct (rng_uint32 rn) as [u rn1].
    unfold nth_or_panic in H. destruct (nth_error ds _) as [y|] eqn:En; cbn [bind] in H; [|discriminate].
    apply (IH _ _ _ _ _ H). intros e He. apply zset_in in He. destruct He as [->|He]; [|now apply A]. destruct y. apply nth_error_In in En. exact En.
Qed.
Lemma corrupt_all su (P : Z -> dealing -> Prop) : (forall k d ts seed bad, P k d -> corrupt_dealing d ts seed = Ok bad -> P k bad) ->
  forall todo ds rn r, corrupt_loop su todo ds rn = Ok r -> (forall k d, In (k, d) todo -> P k d) -> (forall k d, In (k, d) ds -> P k d) -> forall k d, In (k, d) r -> P k d.
Proof.
  intros C. induction todo as [|[k0 d0] todo IH]; intros ds rn r H T D; cbn [corrupt_loop] in H; [apply Ok_inj in H; subst r; exact D|].
  destruct (rng_uint32 rn) as [u rn1]. destruct (su_threshold su =? 0); [discriminate|].
  destruct (target_loop _ _ _ _ _) as [[ts rn2]| | |]; cbn [bind] in H; try discriminate.
  destruct (seed_from_rng rn2) as [[sd rn3]| | |]; cbn [bind] in H; try discriminate.
  destruct (corrupt_dealing d0 (map fst ts) sd) as [bad| | |] eqn:Eb; cbn [bind] in H; try discriminate.
  destruct (check_corrupted su bad k0 ts); cbn [bind] in H; try discriminate.
  apply (IH _ _ _ H); [intros k d Hin; apply T; now right|]. intros k d Hin. apply zset_in in Hin. destruct Hin as [Q|Hin]; [|now apply D].
  injection Q as -> ->. apply (C _ _ _ _ _ (T k0 d0 (or_introl eq_refl)) Eb).
Qed.
End Facts.

(** C113: CreateDealings gives every dealer its own seed, made of its own 32
    bytes of the key stream; removing and corrupting dealings changes nothing
    but encrypted shares *)
Theorem C113_dealers : forall (X : Oracles) (GO : Grp) su sh dealers corrupted op key ds,
  blen key = 32 -> create_dealings su sh dealers corrupted op key = Ok ds -> forall k d, In (k, d) ds -> dealt_with su sh key k d.
Proof.
  intros X GO su sh dealers corrupted op key ds L H. unfold create_dealings in H. rewrite (seed_rng_ok key L), bind_Ok in H.
  destruct (deal_loop su op 0 sh (mkrng key 0)) as [[l rn]| | |] eqn:E; cbn [bind] in H; try discriminate.
  pose proof (deal_seeds su op key sh [] 0 l rn eq_refl E) as A. cbn [app] in A.
  destruct (delete_down l dealers rn) as [[l2 rn2]| | |] eqn:E2; cbn [bind] in H; try discriminate.
  destruct (damage_loop rand_fuel l2 [] corrupted rn2) as [[bad rn3]| | |] eqn:E3; cbn [bind] in H; try discriminate.
  assert (I : forall e, In e l2 -> In e l) by (apply (delete_loop_in _ _ _ _ _ _ E2)).
  apply (corrupt_all su (dealt_with su sh key) (corrupt_keeps su sh key) bad l2 rn3 ds H).
  - intros k d Hin. apply A, I, (damage_in _ _ _ _ _ _ _ E3); [intros e []|exact Hin].
  - intros k d Hin. apply A, I, Hin.
Qed.
Print Assumptions C113_dealers.

(** test values: two receivers, two dealers, one corrupted dealing *)
Section Ex.
Existing Instance ToyShort.shortX.
Existing Instance toyG.
Definition ex_setup : setup := mksetup 2 2 (str "ad") [mul_by_g (of_Z q 21); mul_by_g (of_Z q 22)] [of_Z q 21; of_Z q 22] (repeat 1 32) 0.
Example C113_ex_dealers : match create_dealings ex_setup [SRandom; SRandom] 2 1 TRandom (repeat 7 32) with Ok ds => map fst ds | _ => [] end = [0; 1].
Proof. vm_compute. reflexivity. Qed.
End Ex.
