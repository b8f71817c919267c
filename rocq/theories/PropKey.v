(** Properties C47 to C49: key derivation. *)
From Coq Require Import ZArith Lia Bool String List Ring.
From Verif Require Import Base BaseFacts Zmod Fields ModelScalar ModelXmd ModelRo ProofPoly ModelGroup GroupFacts
  ProofTranscript ModelKey SpecKey ProofKey Toy.
Import ListNotations.
Open Scope Z_scope.

(** C47 *)
(** tweak, chain key and derived key are those of the chain of BIP32 children *)
Theorem C47_derived_key_is_chain_of_children :
  forall (X : Oracles) (HX : oracles_ok X) (GO : Grp) (GL : GrpLaws GO) pa pk t ch,
  derive_tweak pa pk = Ok (t, ch) ->
  exists k o, spec_chain pa pk (repeat 0 32) = (k, ch, o) /\ t = of_Z q o /\ k = gadd pk (mul_by_g t) /\
    derive_public_key (ser pk) pa = Ok (ser k, ch).
Proof.
  intros X HX GO GL pa pk t ch H. pose proof H as H0. unfold derive_tweak in H. apply (tweak_loop_spec HX) in H.
  destruct H as (o & H1 & H2 & H3 & H4). destruct (spec_chain pa pk (repeat 0 32)) as [[k c] o'] eqn:E. cbn [fst snd] in *. subst.
  exists (gadd pk (smul (of_Z q o) genG)), o. split; [reflexivity|].
  assert (Et : fadd fzero (of_Z q o) = of_Z q o) by ring. rewrite Et in *. split; [reflexivity|]. split; [reflexivity|].
  unfold derive_public_key. rewrite deser_ser, bind_Ok, H0, bind_Ok. cbn [fst snd]. unfold mul_by_g. rewrite gadd_comm. reflexivity.
Qed.
(** along a concatenated path *)
Theorem C47_concatenated_path :
  forall (X : Oracles) (HX : oracles_ok X) (GO : Grp) (GL : GrpLaws GO) pa pb pk t1 c1,
  derive_tweak pa pk = Ok (t1, c1) ->
  derive_tweak (pa ++ pb) pk =
    (do r <- tweak_loop pb (gadd pk (mul_by_g t1)) c1 fzero; Ok (fadd t1 (fst r), snd r)).
Proof.
  intros X HX GO GL pa pb pk t1 c1 H. pose proof H as H0.
  apply (C47_derived_key_is_chain_of_children X HX GO GL) in H. destruct H as (k & o & E & _ & <- & _).
  unfold derive_tweak in *. rewrite (tweak_loop_app HX pa pb _ _ _ _ _ k H0) by (rewrite E; reflexivity).
  rewrite tweak_loop_off. destruct (tweak_loop pb k c1 fzero) as [[t c]| | |]; reflexivity.
Qed.
(** outcomes: a bad master key is an error, a good one gives a key or runs out
    of retries; never a panic *)
Theorem C47_outcomes :
  forall (X : Oracles) (HX : oracles_ok X) (GO : Grp) (GL : GrpLaws GO) master pa,
  (forall pk, deser master = Ok pk ->
     (exists t ch, derive_tweak pa pk = Ok (t, ch) /\ derive_public_key master pa = Ok (ser (gadd pk (mul_by_g t)), ch)) \/
     derive_public_key master pa = Diverge) /\
  (deser master = Err -> derive_public_key master pa = Err).
Proof.
  intros X HX GO GL master pa. split.
  - intros pk E. unfold derive_public_key. rewrite E, bind_Ok.
    destruct (tweak_loop_cases HX pa pk (repeat 0 32) fzero) as [[[t c] T]|T]; unfold derive_tweak; rewrite T; [left|right; reflexivity].
    exists t, c. split; [reflexivity|]. rewrite bind_Ok. cbn [fst snd]. rewrite gadd_comm. reflexivity.
  - intros E. unfold derive_public_key. rewrite E. reflexivity.
Qed.
Print Assumptions C47_derived_key_is_chain_of_children.
Print Assumptions C47_concatenated_path.
Print Assumptions C47_outcomes.
Example C47_ex : is_ok (derive_tweak (new_bip32 [1; 2] ++ [[7; 8; 9; 10; 11]]) (mul_by_g (of_Z q 5))) = true.
Proof. vm_compute. reflexivity. Qed.

(** C48 *)
Theorem C48_valid_child_is_bip32 :
  forall (X : Oracles) (HX : oracles_ok X) (GO : Grp) (GL : GrpLaws GO) fuel k c i, spec_valid k c i ->
  exists off, ckdpub (S fuel) k c i = Ok (spec_child_key k c i, spec_R k c i, off) /\
    fv off = spec_L k c i /\ spec_child_key k c i = gadd k (mul_by_g off) /\
    bip32_child index_next k c i (spec_child_key k c i) (spec_R k c i).
Proof.
  intros X HX GO GL fuel k c i V. exists (of_Z q (spec_L k c i)). split; [apply (ckdpub_valid HX); exact V|]. split.
  - rewrite fv_of_Z. apply Z.mod_small. destruct V as [V _]. split; [|exact V].
    pose proof (be_val_range (firstn 32 (hmac512 c (ser k ++ i)))) as R. destruct (hmac_split HX c (ser k ++ i)) as (_ & B & _). apply R. exact B.
  - split; [reflexivity|]. apply bip32_here. exact V.
Qed.
(** whatever the retries found, the invalid child itself is what is returned *)
Theorem C48_invalid_child_returned :
  forall (X : Oracles) (HX : oracles_ok X) (GO : Grp) (GL : GrpLaws GO) fuel k c i, ~ spec_valid k c i ->
  (ckdpub fuel k c i = Ok (spec_child_key k c i, spec_R k c i, of_Z q (spec_L k c i)) \/ ckdpub fuel k c i = Diverge) /\
  (forall n, (n < fuel)%nat -> spec_valid k c (Nat.iter n index_next i) ->
     ckdpub fuel k c i = Ok (spec_child_key k c i, spec_R k c i, of_Z q (spec_L k c i))).
Proof.
  intros X HX GO GL fuel k c i _. destruct (ckdpub_outcome HX fuel k c i) as [A B]. split.
  - destruct B as [[r E]|E]; [left|right; exact E]. rewrite E. f_equal. exact (ckdpub_value HX _ _ _ _ _ E).
  - intros n Hn V. destruct A as [r E]; [eauto|]. rewrite E. f_equal. exact (ckdpub_value HX _ _ _ _ _ E).
Qed.
(** test value, not code of /repo: an HMAC whose left half is out of range for
    indices ending in 0 *)
Definition badX : Oracles := {|
  sha256 := @sha256 toyX;
  hmac512 := fun k m => if last m 1 =? 0 then repeat 255 64 else repeat 1 64;
  keystream := @keystream toyX;
  rand_fuel := 4 |}.
Lemma badX_ok : oracles_ok badX.
Proof.
  destruct toyX_ok as [A B C D E]. split; cbn [sha256 hmac512 keystream badX]; auto.
  - intros k m. destruct (last m 1 =? 0); reflexivity.
  - intros k m. destruct (last m 1 =? 0); repeat constructor; unfold byte_ok; lia.
Qed.
Theorem C48_next_index_rule_refuted :
  ~ (forall (X : Oracles) (HX : oracles_ok X) (GO : Grp) (GL : GrpLaws GO) k c i k' c' off k2 c2,
       ckdpub rand_fuel k c i = Ok (k', c', off) -> bip32_child index_next k c i k2 c2 -> k' = k2).
Proof.
  intros H.
  assert (N : ~ @spec_valid badX toyG (of_Z q 5) [] [0]).
  { intros [V _]. vm_compute in V. discriminate. }
  assert (V : @spec_valid badX toyG (of_Z q 5) [] [1]).
  { split; [vm_compute; reflexivity|]. intros E. apply (f_equal fv) in E. vm_compute in E. discriminate. }
  pose proof (H badX badX_ok toyG toyL (of_Z q 5) [] [0] _ _ _ _ _
    (proj2 (C48_invalid_child_returned badX badX_ok toyG toyL 4 (of_Z q 5) [] [0] N) 1%nat ltac:(lia) V)
    (@bip32_next badX toyG index_next _ _ [0] _ _ N (@bip32_here badX toyG index_next _ _ [1] V))) as E.
  apply (f_equal fv) in E. vm_compute in E. discriminate.
Qed.
Print Assumptions C48_valid_child_is_bip32.
Print Assumptions C48_invalid_child_returned.
Print Assumptions C48_next_index_rule_refuted.
Example C48_ex : spec_valid (mul_by_g (of_Z q 5)) (repeat 0 32) [0; 0; 0; 1].
Proof. split; [vm_compute; reflexivity|]. intros E. apply (f_equal fv) in E. vm_compute in E. discriminate. Qed.

(** C49 *)
Theorem C49_next_is_increment : forall d, bytes_ok d ->
  be_val (index_next d) = be_val d + 1 /\ bytes_ok (index_next d) /\
  (d <> repeat 255 (length d) -> length (index_next d) = length d) /\
  (d = repeat 255 (length d) -> index_next d = 1 :: repeat 0 (length d)).
Proof. exact index_next_spec. Qed.
(** hence the retry never meets an index twice *)
Theorem C49_next_never_cycles : forall d m n, bytes_ok d -> Nat.iter m index_next d = Nat.iter n index_next d -> m = n.
Proof.
  intros d m n B H. apply (f_equal be_val) in H. rewrite !(proj1 (index_next_iter _ d B)) in H. lia.
Qed.
(** the indices NewBip32 makes are those of BIP32, no two paths are confused,
    and Next is the successor below 2^32 *)
Theorem C49_bip32_indices : forall l l', (forall n, In n (l ++ l') -> 0 <= n < 2 ^ 32) ->
  (forall i, (i < length l)%nat -> nth i (new_bip32 l) [] = ser32 (nth i l 0)) /\ List.length (new_bip32 l) = List.length l /\
  (new_bip32 l = new_bip32 l' -> l = l') /\
  (forall n, In n l -> n < 2 ^ 32 - 1 -> index_next (ser32 n) = ser32 (n + 1)) /\ index_next (ser32 (2 ^ 32 - 1)) = [1; 0; 0; 0; 0].
Proof.
  intros l l' R.
  assert (S4 : forall n, 0 <= n < 2 ^ 32 -> be_bytes 4 n = ser32 n).
  { intros n H. unfold be_bytes, ser32. cbn [le_bytes rev app].
    rewrite <- (Z.mod_small (n / 16777216) 256), !Z.div_div by (try lia; Z.div_mod_to_equations; lia). reflexivity. }
  split; [|split; [apply map_length|split; [|split; [|vm_compute; reflexivity]]]].
  - intros i Hi. unfold new_bip32. rewrite (nth_indep _ [] (be_bytes 4 0)) by (rewrite map_length; exact Hi).
    rewrite (map_nth (fun n => be_bytes 4 n)). apply S4, R, in_or_app. left. apply nth_In, Hi.
  - revert l' R. unfold new_bip32. induction l as [|n l IH]; intros [|n' l'] R H; try discriminate H; [reflexivity|].
    cbn [map] in H. assert (Hh : be_bytes 4 n = be_bytes 4 n') by exact (f_equal (hd []) H).
    assert (Ht : map (fun n => be_bytes 4 n) l = map (fun n => be_bytes 4 n) l') by exact (f_equal (@tl _) H).
    f_equal.
    + apply be_bytes_inj in Hh; [exact Hh|apply R; left; reflexivity|apply R; right; apply in_or_app; right; left; reflexivity].
    + apply IH; [|exact Ht]. intros m Hm. apply R. right. apply in_app_or in Hm. apply in_or_app.
      destruct Hm; [left|right; right]; assumption.
  - intros n Hn L. assert (Rn : 0 <= n < 2 ^ 32) by (apply R, in_or_app; left; exact Hn).
    rewrite <- !S4 by lia. destruct (index_next_spec (be_bytes 4 n) (be_bytes_ok 4 n)) as (V & B & K & _).
    rewrite be_bytes_length in K. apply be_val_inj; [exact B|apply be_bytes_ok| |].
    + rewrite be_bytes_length. apply K. intros E. apply (f_equal be_val) in E. rewrite be_val_be_bytes in E.
      change (be_val (repeat 255 4)) with (2 ^ 32 - 1) in E. change (256 ^ Z.of_nat 4) with (2 ^ 32) in E. rewrite Z.mod_small in E by lia. lia.
    + rewrite V, !be_val_be_bytes. change (256 ^ Z.of_nat 4) with (2 ^ 32). rewrite !Z.mod_small by lia. reflexivity.
Qed.
Print Assumptions C49_next_is_increment.
Print Assumptions C49_bip32_indices.
Print Assumptions C49_next_never_cycles.
Example C49_ex : index_next [0; 255; 255] = [1; 0; 0] /\ index_next [255; 255] = [1; 0; 0] /\ index_next [] = [1].
Proof. repeat split. Qed.
Example C49_ex_bip32 : (forall n, In n ([2147483692; 7] ++ [3]) -> 0 <= n < 2 ^ 32) /\ new_bip32 [2147483692; 7] = [[128; 0; 0; 44]; [0; 0; 0; 7]].
Proof. split; [intros n [<-|[<-|[<-|[]]]]; lia|reflexivity]. Qed.
