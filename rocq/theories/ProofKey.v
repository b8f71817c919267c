(** Key derivation. *)
From Coq Require Import ZArith Lia Bool String List Ring Field.
From Verif Require Import Base BaseFacts Zmod Fields ModelScalar ProofScalar ModelXmd ModelRo ProofPoly ModelGroup GroupFacts
  ProofTranscript ModelKey SpecKey.
Import ListNotations.
Open Scope Z_scope.

(** ** Next *)
Lemma add8_spec w c : byte_ok w -> (c = 0 \/ c = 1) ->
  add8 w c = if (w =? 255) && (c =? 1) then (0, true) else (w + c, false).
Proof.
  intros H Hc. unfold add8. unfold byte_ok in H. destruct (Z.ltb_spec 255 (w + c)), (Z.eqb_spec w 255), (Z.eqb_spec c 1); cbn [andb]; try reflexivity; lia.
Qed.
Lemma next_loop_spec l : bytes_ok l -> forall c, (c = 0 \/ c = 1) ->
  let '(r, c') := next_loop l c in
  (c' = 0 \/ c' = 1) /\ bytes_ok r /\ length r = length l /\ le_val r + 256 ^ blen l * c' = le_val l + c /\
  (c' = 1 -> c = 1 /\ l = repeat 255 (length l) /\ r = repeat 0 (length l)).
Proof.
  induction l as [|w l IH]; intros B c Hc; cbn [next_loop].
  - cbn [le_val]. change (256 ^ blen []) with 1. split; [exact Hc|]. split; [constructor|]. split; [reflexivity|]. split; [lia|].
    intros ->. repeat split.
  - inversion B as [|? ? Hw Hl]; subst. rewrite add8_spec by assumption.
    destruct (Z.eqb_spec w 255), (Z.eqb_spec c 1); cbn [andb];
      (specialize (IH Hl); match goal with |- context [next_loop l ?c] => specialize (IH c ltac:(lia)); destruct (next_loop l c) as [r c'] end);
      destruct IH as (I1 & I2 & I3 & I4 & I5); cbn [le_val length]; rewrite blen_cons, Z.pow_add_r by (try lia; apply blen_nonneg);
      unfold byte_ok in *.
    + split; [exact I1|]. split; [constructor; [unfold byte_ok; lia|exact I2]|]. split; [lia|]. split; [lia|].
      intros E. destruct (I5 E) as (_ & E1 & E2). split; [assumption|]. cbn [repeat]. rewrite <- E1, <- E2. subst w. auto.
    + split; [exact I1|]. split; [constructor; [unfold byte_ok; lia|exact I2]|]. split; [lia|]. split; [lia|]. intros E. destruct (I5 E). lia.
    + split; [exact I1|]. split; [constructor; [unfold byte_ok; lia|exact I2]|]. split; [lia|]. split; [lia|]. intros E. destruct (I5 E). lia.
    + split; [exact I1|]. split; [constructor; [unfold byte_ok; lia|exact I2]|]. split; [lia|]. split; [lia|]. intros E. destruct (I5 E). lia.
Qed.
Lemma rev_repeat {A} (a : A) n : rev (repeat a n) = repeat a n.
Proof.
  induction n as [|n IH]; [reflexivity|]. cbn [repeat rev]. rewrite IH. clear IH. induction n as [|n IH]; [reflexivity|]. cbn [repeat app]. rewrite IH. reflexivity.
Qed.
Lemma le_val_ff n : le_val (repeat 255 n) = 256 ^ Z.of_nat n - 1.
Proof.
  induction n as [|n IH]; [reflexivity|]. cbn [repeat le_val]. rewrite IH, Nat2Z.inj_succ, Z.pow_succ_r by lia. lia.
Qed.
Lemma index_next_spec d : bytes_ok d ->
  be_val (index_next d) = be_val d + 1 /\ bytes_ok (index_next d) /\
  (d <> repeat 255 (length d) -> length (index_next d) = length d) /\
  (d = repeat 255 (length d) -> index_next d = 1 :: repeat 0 (length d)).
Proof.
  intros B. unfold index_next, reverse_bytes. pose proof (next_loop_spec (rev d) (bytes_ok_rev d B) 1 (or_intror eq_refl)) as H.
  destruct (next_loop (rev d) 1) as [r c]. destruct H as (Hc & Br & Lr & V & F). rewrite le_val_rev, blen_rev in V.
  rewrite rev_length in Lr. rewrite rev_length in F.
  destruct (Z.eqb_spec c 0) as [->|Hn].
  - rewrite be_val_rev. split; [lia|]. split; [apply bytes_ok_rev; exact Br|]. split.
    + intros _. rewrite rev_length. exact Lr.
    + intros E. exfalso. rewrite E in V. rewrite <- rev_repeat, be_val_rev, le_val_ff in V.
      pose proof (le_val_range r Br) as R. unfold blen in *. rewrite Lr in R. lia.
  - assert (c = 1) by lia. subst c. destruct (F eq_refl) as (_ & E1 & E2).
    assert (Ed : d = repeat 255 (length d)) by (rewrite <- (rev_involutive d), E1, rev_repeat, repeat_length; reflexivity).
    rewrite be_val_rev, le_val_app. cbn [le_val]. split; [unfold blen in *; rewrite Lr; lia|]. split.
    + apply bytes_ok_rev. apply bytes_ok_app. split; [exact Br|]. repeat constructor; lia.
    + split; [intros N; contradiction|]. intros _. rewrite rev_app_distr, E2, rev_repeat. reflexivity.
Qed.
(** iterating Next never comes back *)
Lemma index_next_iter n d : bytes_ok d -> be_val (Nat.iter n index_next d) = be_val d + Z.of_nat n /\ bytes_ok (Nat.iter n index_next d).
Proof.
  intros B. induction n as [|n [IH1 IH2]]; [change (Nat.iter 0 index_next d) with d; change (Z.of_nat 0) with 0; split; [lia|exact B]|].
  change (Nat.iter (S n) index_next d) with (index_next (Nat.iter n index_next d)).
  destruct (index_next_spec _ IH2) as (V & B' & _). rewrite V. split; [lia|exact B'].
Qed.

Lemma iter_succ_r {A} (f : A -> A) n x : Nat.iter n f (f x) = Nat.iter (S n) f x.
Proof. induction n as [|n IH]; [reflexivity|]. change (f (Nat.iter n f (f x)) = f (Nat.iter (S n) f x)). rewrite IH. reflexivity. Qed.

(** ** ckdpub *)
Section Key.
Context {X : Oracles} (HX : oracles_ok X) {GO : Grp} {GL : GrpLaws GO}.

Lemma hmac_split c m : length (firstn 32 (hmac512 c m)) = 32%nat /\ bytes_ok (firstn 32 (hmac512 c m)) /\ length (skipn 32 (hmac512 c m)) = 32%nat.
Proof.
  rewrite firstn_length, skipn_length, (hmac_len _ HX). split; [reflexivity|]. split; [|reflexivity].
  pose proof (hmac_bytes _ HX c m) as B. rewrite <- (firstn_skipn 32 (hmac512 c m)) in B. apply bytes_ok_app in B. apply B.
Qed.
Lemma offset_ok c m : scalar_from_bytes_wide (firstn 32 (hmac512 c m)) = Ok (of_Z q (be_val (firstn 32 (hmac512 c m)))).
Proof.
  unfold scalar_from_bytes_wide. rewrite wide_spec. destruct (hmac_split c m) as (L & _). unfold blen. rewrite L. reflexivity.
Qed.
Lemma canonical_iff c m : bytes_eqb (scalar_serialize (of_Z q (be_val (firstn 32 (hmac512 c m))))) (firstn 32 (hmac512 c m)) = true <->
  be_val (firstn 32 (hmac512 c m)) < q.
Proof.
  destruct (hmac_split c m) as (L & B & _). set (b := firstn 32 (hmac512 c m)) in *. rewrite bytes_eqb_eq.
  assert (R := be_val_range b B). unfold blen in R. rewrite L in R.
  assert (V : be_val (scalar_serialize (of_Z q (be_val b))) = be_val b mod q).
  { rewrite scalar_serialize_be, be_val_be_bytes, fv_of_Z. apply Z.mod_small.
    pose proof (Z.mod_pos_bound (be_val b) q ltac:(unfold q; lia)). change (256 ^ Z.of_nat 32) with (2^256). unfold q in *. lia. }
  split; intros H.
  - rewrite H in V. pose proof (Z.mod_pos_bound (be_val b) q ltac:(unfold q; lia)). lia.
  - apply be_val_inj; [rewrite scalar_serialize_be; apply be_bytes_ok|exact B|rewrite scalar_serialize_be, be_bytes_length; lia|].
    rewrite V. apply Z.mod_small. lia.
Qed.

(** the value, when there is one, never depends on the retries *)
Lemma ckdpub_value fuel k c i r : ckdpub fuel k c i = Ok r ->
  r = (spec_child_key k c i, spec_R k c i, of_Z q (spec_L k c i)).
Proof.
  destruct fuel as [|fuel]; cbn [ckdpub]; [discriminate|]. rewrite offset_ok. cbn [bind].
  change (mul_by_g ?x) with (smul x genG). fold (spec_L k c i). fold (spec_child_key k c i). fold (spec_R k c i).
  destruct (_ || _)%bool; [destruct (ckdpub fuel k c (index_next i)); try discriminate|]; intros H; injection H as <-; reflexivity.
Qed.
Lemma ckdpub_valid fuel k c i : spec_valid k c i -> ckdpub (S fuel) k c i = Ok (spec_child_key k c i, spec_R k c i, of_Z q (spec_L k c i)).
Proof.
  intros [V I]. cbn [ckdpub]. rewrite offset_ok. cbn [bind].
  change (mul_by_g ?x) with (smul x genG). fold (spec_L k c i). fold (spec_child_key k c i). fold (spec_R k c i).
  pose proof (proj2 (canonical_iff c (ser k ++ i)) V) as C. fold (spec_L k c i) in C. rewrite C. cbn [negb orb]. unfold is_infinity.
  destruct (geqb (spec_child_key k c i) gzero) eqn:E; [apply geqb_iff in E; contradiction|reflexivity].
Qed.
Lemma invalid_cond k c i : ~ spec_valid k c i ->
  negb (bytes_eqb (scalar_serialize (of_Z q (spec_L k c i))) (firstn 32 (hmac512 c (ser k ++ i)))) || is_infinity (spec_child_key k c i) = true.
Proof.
  intros H. apply orb_true_iff. unfold is_infinity. destruct (bytes_eqb _ _) eqn:E; [right|left; reflexivity].
  apply canonical_iff in E. destruct (geqb (spec_child_key k c i) gzero) eqn:E'; [reflexivity|]. exfalso. apply H. split; [exact E|].
  intros E2. apply geqb_iff in E2. congruence.
Qed.
(** an answer exists iff one of the first [fuel] indices is valid *)
Lemma ckdpub_outcome fuel k c i : 
  ((exists n, (n < fuel)%nat /\ spec_valid k c (Nat.iter n index_next i)) -> exists r, ckdpub fuel k c i = Ok r) /\
  ((exists r, ckdpub fuel k c i = Ok r) \/ ckdpub fuel k c i = Diverge).
Proof.
  assert (D : forall j, spec_valid k c j \/ ~ spec_valid k c j).
  { intros j. unfold spec_valid. destruct (Z_lt_dec (spec_L k c j) q); [|right; tauto]. destruct (geqb (spec_child_key k c j) gzero) eqn:E.
    - right. apply geqb_iff in E. tauto.
    - left. split; [assumption|]. intros E2. apply geqb_iff in E2. congruence. }
  revert i. induction fuel as [|fuel IH]; intros i.
  - split; [intros (n & H & _); lia|right; reflexivity].
  - destruct (D i) as [V|V].
    + rewrite (ckdpub_valid fuel k c i V). split; eauto.
    + destruct (IH (index_next i)) as [A B]. cbn [ckdpub]. rewrite offset_ok. cbn [bind].
      change (mul_by_g ?x) with (smul x genG). fold (spec_L k c i). fold (spec_child_key k c i). rewrite (invalid_cond k c i V). split.
      * intros (n & Hn & Vn). destruct n as [|n]; [exfalso; apply V; exact Vn|].
        destruct A as [r ->]; [|eauto]. exists n. split; [lia|]. rewrite iter_succ_r. exact Vn.
      * destruct B as [[r ->]| ->]; eauto.
Qed.

(** ** paths *)
Lemma tweak_loop_spec pa : forall k c off t c', tweak_loop pa k c off = Ok (t, c') ->
  exists o, snd (fst (spec_chain pa k c)) = c' /\ snd (spec_chain pa k c) = o /\ t = fadd off (of_Z q o) /\
    fst (fst (spec_chain pa k c)) = gadd k (smul (of_Z q o) genG).
Proof.
  induction pa as [|i pa IH]; intros k c off t c' H; cbn [tweak_loop] in H.
  - injection H as <- <-. exists 0. cbn [spec_chain fst snd]. change (of_Z q 0) with (@fzero q). rewrite smul_zero, gadd_0_r.
    repeat split. ring.
  - destruct (ckdpub rand_fuel k c i) as [r| | |] eqn:E; cbn [bind] in H; try discriminate. apply ckdpub_value in E. subst r.
    apply IH in H. destruct H as (o & H1 & H2 & H3 & H4). cbn [spec_chain].
    destruct (spec_chain pa (spec_child_key k c i) (spec_R k c i)) as [[k' c''] o']. cbn [fst snd] in *. exists (spec_L k c i + o').
    subst o. rewrite of_Z_add. split; [exact H1|]. split; [reflexivity|]. split; [rewrite H3; ring|].
    rewrite H4. unfold spec_child_key. rewrite smul_add. rewrite <- gadd_assoc. reflexivity.
Qed.
Lemma tweak_loop_app pa pb : forall k c off t1 c1 k1, tweak_loop pa k c off = Ok (t1, c1) -> fst (fst (spec_chain pa k c)) = k1 ->
  tweak_loop (pa ++ pb) k c off = tweak_loop pb k1 c1 t1.
Proof.
  induction pa as [|i pa IH]; intros k c off t1 c1 k1 H Hk; cbn [tweak_loop app] in *.
  - injection H as <- <-. cbn in Hk. subst. reflexivity.
  - destruct (ckdpub rand_fuel k c i) as [r| | |] eqn:E; cbn [bind] in *; try discriminate. apply ckdpub_value in E. subst r.
    apply (IH _ _ _ _ _ _ H). cbn [spec_chain] in Hk. destruct (spec_chain pa _ _) as [[? ?] ?]. exact Hk.
Qed.
Lemma tweak_loop_off pa : forall k c off, tweak_loop pa k c off =
  match tweak_loop pa k c fzero with Ok (t, c') => Ok (fadd off t, c') | Err => Err | Panic => Panic | Diverge => Diverge end.
Proof.
  induction pa as [|i pa IH]; intros k c off; cbn [tweak_loop].
  - f_equal. f_equal. ring.
  - destruct (ckdpub rand_fuel k c i) as [[[k' c'] o]| | |]; cbn [bind]; try reflexivity.
    rewrite (IH _ _ (fadd off o)), (IH _ _ (fadd fzero o)). destruct (tweak_loop pa k' c' fzero) as [[t c'']| | |]; try reflexivity.
    f_equal. f_equal. ring.
Qed.
Lemma tweak_loop_cases pa : forall k c off, (exists r, tweak_loop pa k c off = Ok r) \/ tweak_loop pa k c off = Diverge.
Proof.
  induction pa as [|i pa IH]; intros k c off; cbn [tweak_loop]; [eauto|].
  destruct (ckdpub_outcome rand_fuel k c i) as [_ [[[[k' c'] o] ->]| ->]]; cbn [bind]; auto.
Qed.
End Key.
