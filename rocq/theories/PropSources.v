(** C102: seeds from different sources never coincide; C103: comparing Lagrange
    coefficients. *)
From Coq Require Import ZArith Lia Bool String List Ring.
From Verif Require Import Base BaseFacts Zmod Fields ModelScalar ProofScalar ModelXmd SpecXmd ModelRo ProofRand ModelPoly SpecPoly ProofPoly ProofLagrange ModelGroup
  ProofMega ProofTranscript ProofXmd ModelCorruptAll PropSeed.
From Verif Require Import Toy ToyShort.
Import ListNotations.
Open Scope Z_scope.

(** C102.  Spec: the 32 bytes of the key stream from a position on *)
Definition stream_bytes {X : Oracles} (key : bytes) (pos : nat) : bytes := map (fun i => keystream key (pos + i)) (seq 0 32).
Lemma stream_fill {X : Oracles} key pos : fill_uint8 (mkrng key pos) (repeat 0 32) = (stream_bytes key pos, mkrng key (pos + 32)).
Proof.
  unfold fill_uint8. rewrite repeat_length, xor_bytes_zero by (unfold ks_bytes; rewrite map_length, seq_length; reflexivity).
  unfold ks_bytes, rng_skip, stream_bytes. cbn [rng_key rng_pos]. f_equal.
  generalize 32%nat. intros n. revert pos. induction n as [|n IH]; intros pos; [reflexivity|]. cbn [seq map]. f_equal; [f_equal; lia|].
  rewrite (IH (S pos)). rewrite <- seq_shift, map_map. apply map_ext. intros i. f_equal. lia.
Qed.
(** FromRandomness always gives a seed: the expansion of the next 32 bytes of the
    stream; the stream goes on behind them *)
Theorem C102_from_randomness : forall (X : Oracles) (HX : oracles_ok X) key pos,
  exists s, seed_from_randomness (mkrng key pos) = Ok (s, mkrng key (pos + 32)) /\ blen s = 32 /\
    expand_message_xmd (stream_bytes key pos) (str "ic-crypto-seed-from-randomness") 32 = Ok s.
Proof.
  intros X HX key pos. unfold seed_from_randomness. rewrite stream_fill.
  destruct (new_seed_total HX (stream_bytes key pos) from_randomness_dst) as (s & E & L). unfold seed_derive in E. rewrite E, bind_Ok. exists s.
  split; [reflexivity|]. split; [exact L|]. unfold new_seed in E.
  change (str "ic-crypto-seed-from-randomness") with from_randomness_dst.
  destruct (expand_message_xmd (stream_bytes key pos) from_randomness_dst 32) as [o| | |] eqn:Eo; try discriminate E.
  assert (Q : Ok (copy_into 32 o) = Ok s) by exact E. assert (copy_into 32 o = s) as <- by congruence. f_equal.
  apply (expand_length HX) in Eo. unfold copy_into. rewrite Eo. change (32 - Z.to_nat 32)%nat with 0%nat. cbn [repeat]. rewrite app_nil_r.
  change 32%nat with (Z.to_nat 32). rewrite <- Eo, firstn_all. reflexivity.
Qed.
(** the three ways to make a seed: equal seeds come from the same source and the
    same input, or from two strings with the same hash *)
Inductive source := FromBytes (v : bytes) | FromStream (key : bytes) (pos : nat) | FromGenerator (key : bytes) (pos : nat).
Definition made {X : Oracles} (s : source) : res bytes :=
  match s with
  | FromBytes v => seed_from_bytes v
  | FromStream k p => do r <- seed_from_randomness (mkrng k p); Ok (fst r)
  | FromGenerator k p => do r <- seed_from_rng (mkrng k p); Ok (fst r)
  end.
Definition source_tag (s : source) : bytes :=
  match s with FromBytes _ => str "ic-crypto-seed-from-bytes" | FromStream _ _ => str "ic-crypto-seed-from-randomness" | FromGenerator _ _ => str "ic-crypto-seed-from-rng" end.
Definition source_input {X : Oracles} (s : source) : bytes :=
  match s with FromBytes v => v | FromStream k p | FromGenerator k p => stream_bytes k p end.
Definition same_kind (a b : source) : Prop :=
  match a, b with FromBytes _, FromBytes _ | FromStream _ _, FromStream _ _ | FromGenerator _ _, FromGenerator _ _ => True | _, _ => False end.
Theorem C102_sources_are_separate : forall (X : Oracles) (HX : oracles_ok X) a b s,
  made a = Ok s -> made b = Ok s ->
  (same_kind a b /\ source_input a = source_input b) \/
  xmd_collision sha256 (source_input a) (source_tag a) 32 (source_input b) (source_tag b) 32.
Proof.
  intros X HX a b s.
  assert (M : forall a, made a = new_seed (source_input a) (source_tag a)).
  { intros [v|k p|k p]; cbn [made source_input source_tag]; [reflexivity| |].
    - unfold seed_from_randomness. rewrite stream_fill. change (str "ic-crypto-seed-from-randomness") with from_randomness_dst.
      destruct (new_seed (stream_bytes k p) from_randomness_dst); reflexivity.
    - unfold seed_from_rng. rewrite stream_fill. change (str "ic-crypto-seed-from-rng") with from_rng_dst.
      destruct (new_seed (stream_bytes k p) from_rng_dst); reflexivity. }
  rewrite !M. intros A B.
  assert (L : forall a, blen (source_tag a) <= 255) by (intros [| |]; cbn [source_tag]; vm_compute; discriminate).
  destruct (C65_seeds_bind X HX _ _ _ _ _ (L a) (L b) A B) as [[I T]|C]; [left|right; exact C]. split; [|exact I].
  destruct a, b; cbn [source_tag same_kind] in *; try exact Logic.I; vm_compute in T; discriminate T.
Qed.
Print Assumptions C102_from_randomness.
Print Assumptions C102_sources_are_separate.
Example C102_ex : exists s, @made shortX (FromStream (repeat 7 32) 5) = Ok s /\ @made shortX (FromStream (repeat 7 32) 5) = Ok s.
Proof. destruct (C102_from_randomness shortX shortX_ok (repeat 7 32) 5) as (s & E & _). exists s. cbn [made]. rewrite E. auto. Qed.

(** C103: Equal decides whether two coefficient lists are the same, that is
    whether they interpolate all values alike *)
Theorem C103_equal_iff : forall l other, (lagrange_equal l other = 1 <-> l = other) /\ (lagrange_equal l other = 0 <-> l <> other).
Proof.
  assert (B : forall l other, length l = length other -> (equal_loop l other = 1 <-> l = other) /\ (equal_loop l other = 0 <-> l <> other)).
  { induction l as [|a l IH]; intros [|b other] E; try discriminate E; cbn [equal_loop].
    - split; split; intros H; try reflexivity; try discriminate H. congruence.
    - injection E as E. destruct (IH other E) as [I1 I2]. destruct (feqb a b) eqn:F.
      + apply feqb_eq in F. subst b. split; split; intros H.
        * f_equal. apply I1, H.
        * apply I1. congruence.
        * apply I2 in H. congruence.
        * apply I2. congruence.
      + assert (a <> b) by (intros ->; rewrite feqb_refl in F; discriminate). split; split; intros H'; try congruence; discriminate H'. }
  intros l other. unfold lagrange_equal. destruct (Nat.eqb_spec (length l) (length other)) as [E|E]; [apply B, E|].
  assert (l <> other) by congruence. split; split; intros H'; congruence || discriminate H'.
Qed.
Theorem C103_equal_interpolate_alike : forall l other, l <> [] -> other <> [] ->
  (lagrange_equal l other = 1 <-> forall ys, interpolate_scalar l ys = interpolate_scalar other ys).
Proof.
  intros l other N N'. destruct (C103_equal_iff l other) as [E _]. rewrite E. split; [intros ->; reflexivity|]. intros H.
  assert (L : length l = length other).
  { destruct (Nat.eq_dec (length l) (length other)) as [Q|Q]; [exact Q|]. exfalso. specialize (H (repeat fzero (length l))).
    rewrite interpolate_scalar_sum in H by (rewrite ?repeat_length; auto). unfold interpolate_scalar in H. rewrite repeat_length in H.
    apply Nat.eqb_neq in Q. rewrite Q in H. discriminate H. }
  apply (nth_ext _ _ fzero fzero L). intros i Hi.
  set (unit := map (fun j => if Nat.eqb j i then fone else fzero) (seq 0 (length l)) : list Fq).
  assert (Lu : length unit = length l) by (unfold unit; rewrite map_length, seq_length; reflexivity).
  assert (S : forall cs : list Fq, length cs = length l -> cs <> [] -> interpolate_scalar cs unit = Ok (nth i cs fzero)).
  { intros cs Lc Nc. rewrite interpolate_scalar_sum by congruence. f_equal. rewrite Lc.
    assert (U : forall j, (j < length l)%nat -> nth j unit fzero = if Nat.eqb j i then fone else fzero).
    { intros j Hj. unfold unit. rewrite (nth_indep _ fzero ((fun j => if Nat.eqb j i then fone else fzero) 0%nat)) by (rewrite map_length, seq_length; exact Hj).
      rewrite (map_nth (fun j => if Nat.eqb j i then fone else fzero)), seq_nth by exact Hj. reflexivity. }
    rewrite (fsum_delta _ i (length l) Hi).
    - rewrite (U i Hi), Nat.eqb_refl. ring.
    - intros j Hj Nj. rewrite (U j Hj). apply Nat.eqb_neq in Nj. rewrite Nj. ring. }
  specialize (H unit). rewrite (S l eq_refl N), (S other (eq_sym L) N') in H. congruence.
Qed.
Lemma mapM_len {A B} (f : A -> res B) l r : mapM f l = Ok r -> length r = length l.
Proof.
  revert r. induction l as [|a l IH]; intros r; cbn [mapM]; [intros H; inversion H; reflexivity|].
  destruct (f a); [|discriminate..]. cbn [bind]. destruct (mapM f l); [|discriminate..]. cbn [bind].
  intros H. inversion H. cbn [length]. f_equal. apply IH. reflexivity.
Qed.
(** the constructor refuses exactly the empty list; coefficients made by it or by
    AtValue therefore interpolate any list of the right length without panicking *)
Theorem C103_constructed_coefficients : forall l,
  (lagrange_new l = Err <-> l = []) /\
  (forall cs, lagrange_new l = Ok cs -> cs = l /\
     forall ys, (length ys = length cs -> exists s, interpolate_scalar cs ys = Ok s) /\ (length ys <> length cs -> interpolate_scalar cs ys = Err)) /\
  (forall v samples cs, lagrange_at_value v samples = Ok cs -> lagrange_new cs = Ok cs).
Proof.
  intros l. split; [|split].
  - destruct l; split; intros H; try reflexivity; discriminate H.
  - intros cs H. destruct l as [|a l]; [discriminate H|]. injection H as <-. split; [reflexivity|]. intros ys. unfold interpolate_scalar. split; intros L.
    + rewrite L, Nat.eqb_refl. eexists. reflexivity.
    + apply Nat.eqb_neq in L. rewrite L. reflexivity.
  - intros v samples cs H. destruct cs as [|a cs]; [|reflexivity]. exfalso. revert H. unfold lagrange_at_value.
    destruct samples as [|x [|y samples]]; [intros H; discriminate H|intros H; apply (f_equal (fun r => match r with Ok l => length l | _ => 0%nat end)) in H; cbn [length] in H; discriminate H|].
    destruct (negb _); [intros H; discriminate H|]. cbv zeta. set (xs := map from_node_index (x :: y :: samples)).
    assert (Lx : length xs = S (S (length samples))) by (unfold xs; rewrite map_length; reflexivity). clearbody xs.
    assert (Lp : forall t, length (prefix_prods v t xs) = length xs) by (clear; induction xs as [|b xs IH]; intros t; [reflexivity|]; cbn [prefix_prods length]; rewrite IH; reflexivity).
    assert (Ls : length (snd (suffix_prods v xs)) = length xs).
    { clear. induction xs as [|b xs IH]; [reflexivity|]. cbn [suffix_prods]. destruct (suffix_prods v xs) as [t0 l0]. cbn [snd length] in *. rewrite IH. reflexivity. }
    intros H. apply mapM_len in H. rewrite combine_length, map_length, combine_length, Lp, Ls, Lx, !Nat.min_id in H. discriminate H.
Qed.
Print Assumptions C103_constructed_coefficients.
Print Assumptions C103_equal_iff.
Print Assumptions C103_equal_interpolate_alike.
Example C103_ex : lagrange_equal [fone; of_Z q 3] [fone; of_Z q 3] = 1 /\ lagrange_equal [fone; of_Z q 3] [fone; of_Z q 4] = 0 /\ lagrange_equal [fone] [fone; fone] = 0.
Proof. vm_compute. auto. Qed.
