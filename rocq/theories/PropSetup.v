(** C107: what changing the nodes and the threshold of a setup does. *)
From Coq Require Import ZArith Lia Bool String List.
From Verif Require Import Base BaseFacts Zmod Fields ModelScalar ModelXmd SpecXmd ModelRo ProofRand ModelPoly ModelGroup GroupFacts SpecGroup ModelCommit
  ModelMega ProofMega ModelDealing ProofDealing ProofTranscript ModelComplaint ProofDecimal ModelProtocol ModelSetup ProofXmd PropSeed PropSources.
From Verif Require Toy ToyShort.
Import ListNotations.
Open Scope Z_scope.

(** Spec: what a sequence of calls asks for, and the Go int of a number *)
Fixpoint removed (cs : list call) : Z := match cs with [] => 0 | Remove k :: cs => k + removed cs | _ :: cs => removed cs end.
Fixpoint rounds (cs : list call) : Z := match cs with [] => 0 | NextSeed :: cs => 1 + rounds cs | _ :: cs => rounds cs end.
Fixpoint last_threshold (th : Z) (cs : list call) : Z :=
  match cs with [] => th | Threshold t :: cs => last_threshold t cs | _ :: cs => last_threshold th cs end.
Definition is_remove (c : call) : Prop := match c with Remove _ => True | _ => False end.
(** the Go int that is congruent to a number modulo 2^64 *)
Definition int_of (z i : Z) : Prop := - 2^63 <= i < 2^63 /\ exists q, i = z + q * 2^64.
(** scalars drawn one after the other *)
Fixpoint drawn {X : Oracles} (r : rng) (l : list Fq) : Prop :=
  match l with [] => True | x :: l => exists r', random_scalar r = Ok (x, r') /\ drawn r' l end.
(** the keys and the numbers of the first nodes *)
Definition nodes {GO : Grp} (sk : list Fq) (n : Z) : list (Fq * G * Z) :=
  map (fun i => (nth i sk fzero, smul (nth i sk fzero) genG, Z.of_nat i)) (seq 0 (Z.to_nat n)).

Lemma int_of_i64 z i : int_of z i <-> i = i64 z.
Proof.
  unfold int_of, i64. pose proof (Z.mod_pos_bound (z + 2^63) (2^64) ltac:(lia)) as B. split.
  - intros (R & q & ->). symmetry. replace (z + 2^63) with (z + q * 2^64 + 2^63 + (- q) * 2^64) by lia. rewrite Z.mod_add by lia. rewrite Z.mod_small by lia. lia.
  - intros ->. split; [lia|]. exists (- ((z + 2^63) / 2^64)). rewrite (Z.mod_eq (z + 2^63)) by lia. lia.
Qed.
Lemma i64_i64 a b : i64 (i64 a + b) = i64 (a + b).
Proof.
  apply int_of_i64. assert (int_of (i64 a + b) (i64 (i64 a + b))) as (R & q & E) by (apply int_of_i64; reflexivity).
  assert (int_of a (i64 a)) as (_ & q' & E') by (apply int_of_i64; reflexivity).
  split; [exact R|]. exists (q + q'). rewrite E at 1. rewrite E'. lia.
Qed.
Lemma i64_small a : - 2^63 <= a < 2^63 -> i64 a = a.
Proof. intros H. symmetry. apply int_of_i64. split; [exact H|]. exists 0. lia. Qed.

Section Facts.
Context {X : Oracles} {GO : Grp}.

Lemma random_scalars_drawn n : forall r l r', random_scalars n r = Ok (l, r') -> drawn r l /\ length l = n.
Proof.
  induction n as [|n IH]; intros r l r' H; cbn [random_scalars] in H.
  - injection H as <- _. split; [exact I|reflexivity].
  - destruct (random_scalar r) as [[x r1]| | |] eqn:E; try discriminate. cbn [bind] in H.
    destruct (random_scalars n r1) as [[l' r2]| | |] eqn:E'; try discriminate. cbn [bind] in H. injection H as <- _.
    destruct (IH _ _ _ E'). cbn [drawn length]. split; [eauto|congruence].
Qed.
Lemma random_scalars_prefix n : forall m r l r', random_scalars (n + m) r = Ok (l, r') -> exists r1, random_scalars n r = Ok (firstn n l, r1).
Proof.
  induction n as [|n IH]; intros m r l r' H; cbn [random_scalars Nat.add] in *; [eexists; reflexivity|].
  destruct (random_scalar r) as [[x r1]| | |] eqn:E; try discriminate. cbn [bind] in *.
  destruct (random_scalars (n + m) r1) as [[l' r2]| | |] eqn:E'; try discriminate. cbn [bind] in H. injection H as <- _.
  destruct (IH _ _ _ _ E') as (r3 & ->). cbn [bind firstn]. eauto.
Qed.
Lemma drawn_unique : forall l l' r, drawn r l -> drawn r l' -> length l = length l' -> l = l'.
Proof.
  induction l as [|x l IH]; intros [|y l'] r; cbn [drawn length]; try discriminate; [reflexivity|].
  intros (r1 & E & D) (r2 & E' & D') L. rewrite E in E'. injection E' as <- <-. f_equal. apply (IH _ r1); auto.
Qed.

Definition made_of (n th : Z) (seed : bytes) (sk : list Fq) : msetup :=
  mkmsetup th n (stream_bytes seed 0) (mkslice (map mul_by_g sk) (Z.to_nat n)) (mkslice sk (Z.to_nat n)) seed 0.
Lemma m_new_inv n th seed su : m_new n th seed = Ok su ->
  0 <= n /\ blen seed = 32 /\ exists sk, length sk = Z.to_nat n /\ drawn (mkrng seed 32) sk /\ su = made_of n th seed sk.
Proof.
  intros H. unfold m_new, seed_rng, new_chacha in H. destruct (Z.eqb_spec (blen seed) 32) as [L|L]; [|discriminate]. cbn [bind] in H.
  rewrite stream_fill in H. unfold go_make in H. destruct (Z.ltb_spec n 0) as [N|N]; [discriminate|]. cbn [bind] in H.
  destruct (random_scalars (Z.to_nat n) (mkrng seed (0 + 32))) as [[l r]| | |] eqn:E; try discriminate. cbn [bind fst] in H. injection H as <-.
  destruct (random_scalars_drawn _ _ _ _ E) as [D Ll]. split; [exact N|]. split; [exact L|]. exists l. auto.
Qed.
Lemma m_new_ok n th seed sk : 0 <= n -> blen seed = 32 -> length sk = Z.to_nat n -> drawn (mkrng seed 32) sk -> m_new n th seed = Ok (made_of n th seed sk).
Proof.
  intros N L Ls D. unfold m_new, seed_rng, new_chacha. rewrite (proj2 (Z.eqb_eq _ _) L). cbn [bind].
  rewrite stream_fill. unfold go_make. destruct (Z.ltb_spec n 0); [lia|]. cbn [bind]. change (0 + 32)%nat with 32%nat.
  assert (Q : forall l r, drawn r l -> exists r', random_scalars (length l) r = Ok (l, r')).
  { induction l as [|x l IH]; intros r; cbn [drawn length random_scalars]; [eauto|]. intros (r1 & E & D1). rewrite E. cbn [bind].
    destruct (IH _ D1) as (r2 & ->). cbn [bind]. eauto. }
  rewrite <- Ls. destruct (Q _ _ D) as (r' & ->). cbn [bind fst]. unfold made_of. rewrite Ls. reflexivity.
Qed.

(** the invariant of all sequences of calls *)
Definition inv (n : Z) (sk : list Fq) (su : msetup) : Prop :=
  sl_array (ms_pk su) = map mul_by_g sk /\ sl_array (ms_sk su) = sk /\
  (0 <= ms_receivers su <= n -> sl_len (ms_pk su) = Z.to_nat (ms_receivers su) /\ sl_len (ms_sk su) = Z.to_nat (ms_receivers su)).
Lemma reslice_cases {A} (s : slice A) n : (0 <= n <= Z.of_nat (length (sl_array s)) /\ reslice s n = Ok (mkslice (sl_array s) (Z.to_nat n))) \/
  (~ 0 <= n <= Z.of_nat (length (sl_array s)) /\ reslice s n = Panic).
Proof. unfold reslice. destruct (Z.ltb_spec n 0), (Z.ltb_spec (Z.of_nat (length (sl_array s))) n); cbn [orb]; [right|right|right|left]; split; auto; lia. Qed.
Lemma remove_cases n sk su k : length sk = Z.to_nat n -> 0 <= n -> inv n sk su ->
  let m := i64 (ms_receivers su - k) in
  (0 <= m <= n /\ m_remove su k = (Ok tt, mkmsetup (ms_threshold su) m (ms_ad su) (mkslice (map mul_by_g sk) (Z.to_nat m)) (mkslice sk (Z.to_nat m)) (ms_seed su) (ms_round su))) \/
  (~ 0 <= m <= n /\ m_remove su k = (Panic, mkmsetup (ms_threshold su) m (ms_ad su) (ms_pk su) (ms_sk su) (ms_seed su) (ms_round su))).
Proof.
  intros L N (I1 & I2 & _) m. unfold m_remove. fold m.
  destruct (reslice_cases (ms_pk su) m) as [[B ->]|[B ->]]; rewrite I1, map_length, L, Z2Nat.id in B by lia; [|right; auto].
  destruct (reslice_cases (ms_sk su) m) as [[B' ->]|[B' ->]]; rewrite I2, L, Z2Nat.id in B' by lia; [|lia]. left. rewrite I1, I2. auto.
Qed.
Lemma remove_inv n sk su k : length sk = Z.to_nat n -> 0 <= n -> inv n sk su -> inv n sk (snd (m_remove su k)).
Proof.
  intros L N I. pose proof I as (I1 & I2 & _). destruct (remove_cases n sk su k L N I) as [[B ->]|[B ->]]; cbn [snd]; split; cbn; auto.
  split; auto. intros B'. destruct (B B').
Qed.
Lemma remove_fields su k : let su' := snd (m_remove su k) in
  ms_threshold su' = ms_threshold su /\ ms_receivers su' = i64 (ms_receivers su - k) /\ ms_ad su' = ms_ad su /\ ms_seed su' = ms_seed su /\ ms_round su' = ms_round su.
Proof. unfold m_remove. destruct (reslice (ms_pk su) _); [destruct (reslice (ms_sk su) _)|..]; cbn; auto. Qed.
Lemma calls_inv n sk cs : length sk = Z.to_nat n -> 0 <= n -> forall su, inv n sk su -> - 2^63 <= ms_receivers su < 2^63 -> - 2^63 <= ms_round su < 2^63 ->
  let su' := m_calls su cs in
  inv n sk su' /\ ms_threshold su' = last_threshold (ms_threshold su) cs /\ ms_receivers su' = i64 (ms_receivers su - removed cs) /\
  ms_ad su' = ms_ad su /\ ms_seed su' = ms_seed su /\ ms_round su' = i64 (ms_round su + rounds cs).
Proof.
  intros L N. unfold m_calls. induction cs as [|c cs IH]; intros su I R R'; cbn [fold_left].
  - cbn [last_threshold removed rounds]. rewrite Z.sub_0_r, Z.add_0_r, (i64_small (ms_receivers su)), (i64_small (ms_round su)) by assumption. split; [exact I|]. auto 6.
  - assert (B : forall z, - 2^63 <= i64 z < 2^63) by (intros z; unfold i64; pose proof (Z.mod_pos_bound (z + 2^63) (2^64) ltac:(lia)); lia).
    destruct c as [k|t|]; cbn [m_call last_threshold removed rounds].
    + destruct (remove_fields su k) as (F1 & F2 & F3 & F4 & F5).
      destruct (IH (snd (m_remove su k))) as (J & E1 & E2 & E3 & E4 & E5); [apply remove_inv; assumption|rewrite F2; apply B|rewrite F5; exact R'|].
      split; [exact J|]. rewrite E1, E2, E3, E4, E5, F1, F2, F3, F4, F5. repeat split; auto. unfold Z.sub at 1. rewrite i64_i64. f_equal. lia.
    + apply (IH (m_threshold su t) I R R').
    + destruct (IH (snd (m_next_seed su)) I R (B _)) as (J & E1 & E2 & E3 & E4 & E5). split; [exact J|]. rewrite E1, E2, E3, E4, E5. cbn. repeat split; auto.
      rewrite i64_i64. f_equal. lia.
Qed.
Lemma new_inv n th seed sk : length sk = Z.to_nat n -> inv n sk (made_of n th seed sk).
Proof. intros L. split; [reflexivity|]. split; [reflexivity|]. cbn. auto. Qed.

Lemma info_ok n sk su : length sk = Z.to_nat n -> inv n sk su -> 0 <= ms_receivers su <= n -> m_receiver_info su = Ok (nodes sk (ms_receivers su)).
Proof.
  intros L (I1 & I2 & I3) B. destruct (I3 B) as [L1 L2]. unfold m_receiver_info, go_make. destruct (Z.ltb_spec (ms_receivers su) 0); [lia|]. cbn [bind].
  unfold nodes. apply mapM_total. intros i Hi. apply in_seq in Hi. unfold nth_or_panic, sl_elems. rewrite I1, I2, L1, L2.
  assert (Li : (i < length (firstn (Z.to_nat (ms_receivers su)) sk))%nat) by (rewrite firstn_length; lia).
  assert (E : nth_error (firstn (Z.to_nat (ms_receivers su)) sk) i = Some (nth i sk fzero)).
  { rewrite (nth_error_nth' _ fzero Li). f_equal. rewrite <- (firstn_skipn (Z.to_nat (ms_receivers su)) sk) at 2. rewrite app_nth1 by exact Li. reflexivity. }
  rewrite E. cbn [bind]. rewrite firstn_map. rewrite nth_error_map, E. cbn [option_map bind]. reflexivity.
Qed.
Lemma mapM_panics {A B} (f : A -> res B) l : (forall a, In a l -> f a = Panic \/ exists b, f a = Ok b) -> (exists a, In a l /\ f a = Panic) -> mapM f l = Panic.
Proof.
  induction l as [|a l IH]; intros H (x & Hin & E); [destruct Hin|]. cbn [mapM]. destruct (H a (or_introl eq_refl)) as [->|(b & Eb)]; [reflexivity|]. rewrite Eb. cbn [bind].
  rewrite IH; [reflexivity|intros y Hy; apply H; right; exact Hy|]. destruct Hin as [->|Hin]; [congruence|eauto].
Qed.
Lemma info_panics n sk su : 0 <= n -> length sk = Z.to_nat n -> inv n sk su -> ~ 0 <= ms_receivers su <= n -> m_receiver_info su = Panic.
Proof.
  intros N L (I1 & I2 & _) B. unfold m_receiver_info, go_make. destruct (Z.ltb_spec (ms_receivers su) 0) as [H|H]; [reflexivity|]. cbn [bind].
  apply mapM_panics.
  - intros i _. unfold nth_or_panic. destruct (nth_error (sl_elems (ms_sk su)) i); cbn [bind]; [|auto]. destruct (nth_error (sl_elems (ms_pk su)) i); cbn [bind]; [right; eauto|auto].
  - exists (Z.to_nat n). split; [apply in_seq; lia|]. unfold nth_or_panic, sl_elems. rewrite I2.
    rewrite (proj2 (nth_error_None _ _)); [reflexivity|]. rewrite firstn_length. lia.
Qed.
End Facts.

(** New setups: only the number of nodes is checked, by the panic of make; the
    threshold may be any number.  The associated data are the first 32 bytes of the
    key stream of the seed, the keys are drawn one after the other behind them. *)
Theorem C107_new_setups : forall (X : Oracles) (HX : oracles_ok X) (GO : Grp) (GL : GrpLaws GO) n th seed,
  (blen seed = 32 -> n < 0 -> m_new n th seed = Panic) /\
  (blen seed = 32 -> 0 <= n -> m_new n th seed = Diverge \/ exists su, m_new n th seed = Ok su) /\
  (forall su, m_new n th seed = Ok su ->
     ms_threshold su = th /\ ms_receivers su = n /\ ms_ad su = stream_bytes seed 0 /\ ms_seed su = seed /\ ms_round su = 0 /\
     exists sk, Z.of_nat (length sk) = n /\ drawn (mkrng seed 32) sk /\ m_receiver_info su = Ok (nodes sk n)).
Proof.
  intros X HX GO GL n th seed. split; [|split].
  - intros L N. unfold m_new, seed_rng, new_chacha. rewrite (proj2 (Z.eqb_eq _ _) L). cbn [bind]. rewrite stream_fill. unfold go_make. rewrite (proj2 (Z.ltb_lt _ _) N). reflexivity.
  - intros L N. unfold m_new, seed_rng, new_chacha. rewrite (proj2 (Z.eqb_eq _ _) L). cbn [bind]. rewrite stream_fill. unfold go_make. destruct (Z.ltb_spec n 0); [lia|]. cbn [bind].
    destruct (random_scalars_cases (Z.to_nat n) (mkrng seed (0 + 32))) as [(l & r & -> & _)| ->]; [right; cbn [bind]; eauto|left; reflexivity].
  - intros su E. destruct (m_new_inv _ _ _ _ E) as (N & L & sk & Ls & D & ->). unfold made_of at 1 2 3 4 5. cbn. repeat split.
    exists sk. split; [lia|]. split; [exact D|]. rewrite (info_ok n sk); [reflexivity|exact Ls|apply new_inv, Ls|cbn; lia].
Qed.
Print Assumptions C107_new_setups.

(** Every sequence of calls, the caller recovering from panics: threshold, number
    of nodes, round counter and keys afterwards.  Nothing but the sum of the removals
    counts; when it lies outside of 0..n the nodes cannot be listed. *)
Theorem C107_every_sequence_of_calls : forall (X : Oracles) (GO : Grp) n th seed su sk cs m,
  n < 2^63 -> m_new n th seed = Ok su -> m_receiver_info su = Ok (nodes sk n) -> int_of (n - removed cs) m ->
  let su' := m_calls su cs in
  ms_threshold su' = last_threshold th cs /\ ms_receivers su' = m /\ ms_ad su' = ms_ad su /\ ms_seed su' = seed /\ int_of (rounds cs) (ms_round su') /\
  (0 <= m <= n -> m_receiver_info su' = Ok (nodes sk m)) /\ (~ 0 <= m <= n -> m_receiver_info su' = Panic).
Proof.
  intros X GO n th seed su sk0 cs m B E E0 Hm su'. destruct (m_new_inv _ _ _ _ E) as (N & L & sk & Ls & D & ->).
  destruct (calls_inv n sk cs Ls N (made_of n th seed sk)) as (J & E1 & E2 & E3 & E4 & E5); [apply new_inv, Ls|cbn; lia|cbn; lia|].
  fold su' in J, E1, E2, E3, E4, E5. change (ms_receivers (made_of n th seed sk)) with n in E2. change (ms_round (made_of n th seed sk)) with 0 in E5.
  apply int_of_i64 in Hm. rewrite <- Hm in E2.
  rewrite (info_ok n sk) in E0; [|exact Ls|apply new_inv, Ls|cbn; lia]. change (ms_receivers (made_of n th seed sk)) with n in E0.
  split; [exact E1|]. split; [exact E2|]. split; [exact E3|]. split; [exact E4|]. split; [apply int_of_i64; exact E5|]. split; intros R.
  - rewrite (info_ok n sk); [|exact Ls|exact J|rewrite E2; exact R]. rewrite E2. f_equal.
    assert (Q : nodes sk n = nodes sk0 n) by (injection E0; auto). clear - Q R. unfold nodes in *. apply map_ext_in. intros i Hi. apply in_seq in Hi.
    assert (Hi' : In i (seq 0 (Z.to_nat n))) by (apply in_seq; lia). apply (ext_in_map Q) in Hi'. exact Hi'.
  - apply (info_panics n sk); [exact N|exact Ls|exact J|rewrite E2; exact R].
Qed.
Print Assumptions C107_every_sequence_of_calls.

(** When a removal panics, after any calls *)
Theorem C107_removals_that_panic : forall (X : Oracles) (GO : Grp) n th seed su cs k m,
  n < 2^63 -> m_new n th seed = Ok su -> int_of (n - removed cs - k) m ->
  (0 <= m <= n -> fst (m_remove (m_calls su cs) k) = Ok tt) /\ (~ 0 <= m <= n -> fst (m_remove (m_calls su cs) k) = Panic).
Proof.
  intros X GO n th seed su cs k m B E Hm. destruct (m_new_inv _ _ _ _ E) as (N & L & sk & Ls & D & ->).
  destruct (calls_inv n sk cs Ls N (made_of n th seed sk)) as (J & _ & E2 & _); [apply new_inv, Ls|cbn; lia|cbn; lia|].
  change (ms_receivers (made_of n th seed sk)) with n in E2. apply int_of_i64 in Hm.
  assert (Q : i64 (i64 (n - removed cs) - k) = m) by (rewrite Hm; unfold Z.sub at 1; rewrite i64_i64; reflexivity).
  destruct (remove_cases n sk _ k Ls N J) as [[R ->]|[R ->]]; rewrite E2, Q in R; cbn [fst]; split; intros R'; auto; [destruct (R' R)|destruct (R R')].
Qed.
Print Assumptions C107_removals_that_panic.

(** Removed nodes come back: removals that add up to zero, the negative ones
    among them, leave the setup as it was, also when some of them panicked. *)
Theorem C107_removed_nodes_come_back : forall (X : Oracles) (GO : Grp) n th seed su cs,
  n < 2^63 -> m_new n th seed = Ok su -> Forall is_remove cs -> removed cs = 0 -> m_calls su cs = su.
Proof.
  intros X GO n th seed su cs B E F S. destruct (m_new_inv _ _ _ _ E) as (N & L & sk & Ls & D & ->).
  destruct (calls_inv n sk cs Ls N (made_of n th seed sk)) as (J & E1 & E2 & E3 & E4 & E5); [apply new_inv, Ls|cbn; lia|cbn; lia|].
  rewrite S in E2. change (ms_receivers (made_of n th seed sk)) with n in E2. rewrite Z.sub_0_r, i64_small in E2 by lia.
  assert (T : forall t, last_threshold t cs = t /\ rounds cs = 0).
  { clear - F. induction F as [|c cs Hc F IH]; intros t; [auto|]. destruct c; try destruct Hc. apply IH. }
  rewrite (proj1 (T _)) in E1. rewrite (proj2 (T 0)) in E5.
  destruct J as (I1 & I2 & I3). destruct I3 as [I3 I4]; [rewrite E2; lia|]. rewrite E2 in I3, I4.
  destruct (m_calls (made_of n th seed sk) cs) as [t r ad [pa pl] [sa sl] sd rd]. cbn [ms_threshold ms_receivers ms_ad ms_pk ms_sk ms_seed ms_round sl_array sl_len made_of] in *.
  unfold made_of. change (i64 (0 + 0)) with 0 in E5. subst. reflexivity.
Qed.
Print Assumptions C107_removed_nodes_come_back.

(** Fewer nodes from the start are the same as nodes removed later: keys, numbers
    and associated data agree. *)
Theorem C107_removing_is_a_smaller_setup : forall (X : Oracles) (GO : Grp) n k th seed su,
  n < 2^63 -> 0 <= k <= n -> m_new n th seed = Ok su ->
  exists su', m_new (n - k) th seed = Ok su' /\ fst (m_remove su k) = Ok tt /\
    let su1 := snd (m_remove su k) in
    m_receiver_info su1 = m_receiver_info su' /\ ms_ad su1 = ms_ad su' /\ ms_threshold su1 = ms_threshold su' /\ ms_receivers su1 = ms_receivers su' /\
    ms_seed su1 = ms_seed su' /\ ms_round su1 = ms_round su'.
Proof.
  intros X GO n k th seed su B K E. destruct (m_new_inv _ _ _ _ E) as (N & L & sk & Ls & D & ->).
  pose proof (new_inv n th seed sk Ls) as I0.
  assert (D' : forall j r l, drawn r l -> drawn r (firstn j l)).
  { clear. induction j as [|j IH]; intros r l H; [exact I|]. destruct l as [|x l]; [exact I|]. cbn [drawn firstn] in *. destruct H as (r' & E & H). eauto. }
  set (sk' := firstn (Z.to_nat (n - k)) sk). assert (Ls' : length sk' = Z.to_nat (n - k)) by (unfold sk'; rewrite firstn_length; lia).
  exists (made_of (n - k) th seed sk'). split; [apply m_new_ok; [lia|exact L|exact Ls'|apply D', D]|].
  pose proof (remove_inv n sk _ k Ls N I0) as I1. destruct (remove_fields (made_of n th seed sk) k) as (F1 & F2 & F3 & F4 & F5).
  change (ms_receivers (made_of n th seed sk)) with n in F2. rewrite i64_small in F2 by lia.
  split.
  - destruct (remove_cases n sk _ k Ls N I0) as [[_ ->]|[R _]]; [reflexivity|]. cbn in R. rewrite i64_small in R by lia. lia.
  - split; [|rewrite F1, F2, F3, F4, F5; cbn; auto].
    rewrite (info_ok n sk _ Ls I1) by lia. rewrite (info_ok (n - k) sk' _ Ls' (new_inv _ th seed sk' Ls')) by (cbn; lia). rewrite F2. cbn [made_of ms_receivers].
    f_equal. unfold nodes. apply map_ext_in. intros i Hi. apply in_seq in Hi. assert (Q : nth i sk' fzero = nth i sk fzero).
    { unfold sk'. rewrite <- (firstn_skipn (Z.to_nat (n - k)) sk) at 2. rewrite app_nth1; [reflexivity|]. rewrite firstn_length. lia. }
    rewrite Q. reflexivity.
Qed.
Print Assumptions C107_removing_is_a_smaller_setup.

(** The seed of a round: it depends on the seed of the setup and on the number of
    seeds taken before, and on no other call; seeds of different rounds differ, or two
    given strings collide. *)
Theorem C107_round_seeds : forall (X : Oracles) (HX : oracles_ok X) (GO : Grp) n th seed su cs,
  n < 2^63 -> m_new n th seed = Ok su -> rounds cs < 2^63 ->
  exists s, fst (m_next_seed (m_calls su cs)) = Ok s /\ blen s = 32 /\
    seed_derive seed (str "ic-crypto-tecdsa-round-" ++ decimal (rounds cs)) = Ok s /\
    forall cs', rounds cs' < 2^63 -> fst (m_next_seed (m_calls su cs')) = Ok s ->
      rounds cs' = rounds cs \/ xmd_collision sha256 seed (str "ic-crypto-tecdsa-round-" ++ decimal (rounds cs)) 32
                                              seed (str "ic-crypto-tecdsa-round-" ++ decimal (rounds cs')) 32.
Proof.
  intros X HX GO n th seed su cs B E R.
  assert (P : forall cs, 0 <= rounds cs) by (clear; induction cs as [|[]]; cbn [rounds]; lia).
  assert (Q : forall cs, rounds cs < 2^63 -> fst (m_next_seed (m_calls su cs)) = seed_derive seed (str "ic-crypto-tecdsa-round-" ++ decimal (rounds cs))).
  { clear cs R. intros cs R. destruct (m_new_inv _ _ _ _ E) as (N & L & sk & Ls & D & ->).
    destruct (calls_inv n sk cs Ls N (made_of n th seed sk)) as (_ & _ & _ & _ & E4 & E5); [apply new_inv, Ls|cbn; lia|cbn; lia|].
    unfold m_next_seed. cbn [fst]. rewrite E4, E5. cbn [made_of ms_round ms_seed]. rewrite Z.add_0_l, i64_small by (specialize (P cs); lia). reflexivity. }
  destruct (new_seed_total HX seed (round_dst (rounds cs))) as (s & Es & Ls). exists s. rewrite (Q _ R). split; [exact Es|]. split; [exact Ls|]. split; [exact Es|].
  intros cs' R' E'. rewrite (Q _ R') in E'.
  destruct (C65_derived_seeds_differ X HX seed seed (Round (rounds cs)) (Round (rounds cs')) s) as [[_ U]|U].
  - specialize (P cs). cbn [purpose_ok]. unfold int64. lia.
  - specialize (P cs'). cbn [purpose_ok]. unfold int64. lia.
  - exact Es.
  - exact E'.
  - left. injection U. auto.
  - right. exact U.
Qed.
Print Assumptions C107_round_seeds.

(** The setups of the other theorems (ModelProtocol, which keeps no capacity) are
    these: as long as no removal is negative the results agree. *)
Definition value_of {GO : Grp} (su : msetup) : setup :=
  mksetup (ms_threshold su) (ms_receivers su) (ms_ad su) (sl_elems (ms_pk su)) (sl_elems (ms_sk su)) (ms_seed su) (ms_round su).
Theorem C107_agrees_with_the_drivers : forall (X : Oracles) (HX : oracles_ok X) (GO : Grp) n th seed, n < 2^63 ->
  new_setup n th seed = match m_new n th seed with Ok su => Ok (value_of su) | Err => Err | Panic => Panic | Diverge => Diverge end /\
  forall su cs, m_new n th seed = Ok su -> 0 <= n - removed cs <= n ->
    let su1 := m_calls su cs in
    receiver_info (value_of su1) = m_receiver_info su1 /\
    (forall t, modify_threshold (value_of su1) t = value_of (m_threshold su1 t)) /\
    (forall k, 0 <= k < 2^63 -> remove_nodes (value_of su1) k = do _ <- fst (m_remove su1 k); Ok (value_of (snd (m_remove su1 k)))) /\
    (rounds cs < 2^63 - 1 -> exists s, next_dealing_seed (value_of su1) = Ok (s, value_of (snd (m_next_seed su1))) /\ fst (m_next_seed su1) = Ok s).
Proof.
  intros X HX GO n th seed B. split.
  { unfold new_setup, m_new. destruct (seed_rng seed) as [rn| | |]; cbn [bind]; try reflexivity. destruct (fill_uint8 rn (repeat 0 32)) as [ad rn1].
    destruct (go_make n) as [k| | |] eqn:Eg; cbn [bind]; try reflexivity. destruct (random_scalars k rn1) as [[l r]| | |] eqn:E; cbn [bind]; try reflexivity.
    destruct (random_scalars_drawn _ _ _ _ E) as [_ Ll]. unfold value_of, sl_elems. cbn. rewrite firstn_map, <- Ll, firstn_all. reflexivity. }
  intros su cs E S su1. destruct (m_new_inv _ _ _ _ E) as (N & L & sk & Ls & D & ->).
  destruct (calls_inv n sk cs Ls N (made_of n th seed sk)) as (J & E1 & E2 & E3 & E4 & E5); [apply new_inv, Ls|cbn; lia|cbn; lia|].
  fold su1 in J, E1, E2, E3, E4, E5. change (ms_receivers (made_of n th seed sk)) with n in E2. rewrite i64_small in E2 by lia.
  split; [reflexivity|]. split; [reflexivity|]. split.
  - intros k K. pose proof J as (I1 & I2 & I3). destruct I3 as [I3 I4]; [rewrite E2; lia|].
    assert (Lp : Z.of_nat (length (sl_elems (ms_pk su1))) = ms_receivers su1).
    { unfold sl_elems. rewrite firstn_length, I1, map_length, I3, Ls, E2. lia. }
    unfold remove_nodes. cbn [value_of su_receivers su_pk su_sk su_threshold su_ad su_seed su_round]. rewrite Lp.
    destruct (remove_cases n sk su1 k Ls N J) as [[R ->]|[R ->]]; rewrite i64_small in R |- * by (rewrite E2; lia).
    + destruct (Z.ltb_spec (ms_receivers su1 - k) 0) as [Hlt|_]; [lia|]. destruct (Z.ltb_spec (ms_receivers su1) (ms_receivers su1 - k)) as [Hlt|_]; [lia|].
      cbn [orb fst snd bind]. unfold value_of, sl_elems. cbn. rewrite I1, I2, I3, I4, !firstn_firstn, !Nat.min_l by lia. reflexivity.
    + rewrite E2 in R. destruct (Z.ltb_spec (ms_receivers su1 - k) 0) as [_|Hge]; [reflexivity|]. rewrite E2 in Hge. lia.
  - intros R. assert (P : 0 <= rounds cs) by (clear; induction cs as [|[]]; cbn [rounds]; lia).
    change (ms_round (made_of n th seed sk)) with 0 in E5. rewrite Z.add_0_l, i64_small in E5 by lia.
    destruct (new_seed_total HX (ms_seed su1) (round_dst (ms_round su1))) as (s & Es & _). exists s. unfold next_dealing_seed, m_next_seed. cbn [value_of su_seed su_round fst snd].
    rewrite Es. cbn [bind]. split; [|reflexivity]. unfold value_of. cbn. rewrite i64_small by lia. reflexivity.
Qed.
Print Assumptions C107_agrees_with_the_drivers.

(** "A removed node does not come back" is false *)
Definition C107_removal_is_final : Prop := forall (X : Oracles) (HX : oracles_ok X) (GO : Grp) (GL : GrpLaws GO) n th seed su k cs l l',
  n < 2^63 -> 0 < k <= n -> m_new n th seed = Ok su ->
  m_receiver_info (m_calls su [Remove k]) = Ok l -> m_receiver_info (m_calls su (Remove k :: cs)) = Ok l' -> forall e, In e l' -> In e l.
Definition ex_seed : bytes := map Z.of_nat (seq 1 32).
Lemma ex_new n : match @m_new ToyShort.shortX Toy.toyG n 5 ex_seed with Ok _ => true | _ => false end = true ->
  exists su, @m_new ToyShort.shortX Toy.toyG n 5 ex_seed = Ok su.
Proof. destruct (m_new n 5 ex_seed) as [su| | |]; [eauto|discriminate..]. Qed.
Lemma ex_three : exists su, @m_new ToyShort.shortX Toy.toyG 3 5 ex_seed = Ok su.
Proof. apply ex_new. vm_compute. reflexivity. Qed.
Lemma nodes_snd {GO : Grp} sk n e : In e (nodes sk n) -> 0 <= snd e < n.
Proof. unfold nodes. intros H. apply in_map_iff in H. destruct H as (i & <- & Hi). apply in_seq in Hi. cbn [snd]. lia. Qed.
Lemma nodes_has {GO : Grp} sk n i : 0 <= i < n -> exists e, In e (nodes sk n) /\ snd e = i.
Proof.
  intros H. eexists. split; [apply in_map_iff; exists (Z.to_nat i); split; [reflexivity|apply in_seq; lia]|]. cbn [snd]. lia.
Qed.
Theorem C107_removal_is_final_refuted : ~ C107_removal_is_final.
Proof.
  intros H. destruct ex_three as (su & E).
  destruct (proj2 (proj2 (C107_new_setups _ ToyShort.shortX_ok _ Toy.toyL 3 5 ex_seed)) su E) as (_ & _ & _ & _ & _ & sk & Ls & _ & I).
  assert (I1 : m_receiver_info (@m_calls ToyShort.shortX Toy.toyG su [Remove 2]) = Ok (nodes sk 1)).
  { apply (C107_every_sequence_of_calls _ _ 3 5 ex_seed su sk [Remove 2] 1); [lia|exact E|exact I| |lia]. split; [lia|]. exists 0. cbn. lia. }
  assert (I2 : m_receiver_info (@m_calls ToyShort.shortX Toy.toyG su [Remove 2; Remove (-2)]) = Ok (nodes sk 3)).
  { rewrite (C107_removed_nodes_come_back _ _ 3 5 ex_seed su); [exact I|lia|exact E|repeat constructor|reflexivity]. }
  specialize (H _ ToyShort.shortX_ok _ Toy.toyL 3 5 ex_seed su 2 [Remove (-2)] _ _ ltac:(lia) ltac:(lia) E I1 I2).
  destruct (@nodes_has Toy.toyG sk 3 2 ltac:(lia)) as (e & He & E2). specialize (H e He). apply nodes_snd in H. rewrite E2 in H. destruct H as [_ H]. discriminate H.
Qed.
Print Assumptions C107_removal_is_final_refuted.

(** three nodes with threshold 5, two of them removed, four more, a threshold and
    rounds in between; nodes brought back *)
Example C107_ex : exists su sk, @m_new ToyShort.shortX Toy.toyG 3 5 ex_seed = Ok su /\ m_receiver_info su = Ok (nodes sk 3) /\
  let cs := [Remove 2; NextSeed; Threshold 1; Remove 4; Remove (-5); NextSeed] in
  m_receiver_info (@m_calls ToyShort.shortX Toy.toyG su cs) = Ok (nodes sk 2) /\ ms_threshold (@m_calls ToyShort.shortX Toy.toyG su cs) = 1 /\ rounds cs = 2 /\
  fst (m_remove (@m_calls ToyShort.shortX Toy.toyG su [Remove 2]) 4) = Panic /\ m_receiver_info (@m_calls ToyShort.shortX Toy.toyG su [Remove 2; Remove 4]) = Panic.
Proof.
  destruct ex_three as (su & E). exists su.
  destruct (proj2 (proj2 (C107_new_setups _ ToyShort.shortX_ok _ Toy.toyL 3 5 ex_seed)) su E) as (_ & _ & _ & _ & _ & sk & Ls & _ & I).
  exists sk. split; [exact E|]. split; [exact I|]. intros cs.
  destruct (C107_every_sequence_of_calls _ _ 3 5 ex_seed su sk cs 2 ltac:(lia) E I) as (T & _ & _ & _ & _ & O & _); [split; [lia|]; exists 0; cbn; lia|].
  split; [apply O; lia|]. split; [exact T|]. split; [reflexivity|]. split.
  - apply (C107_removals_that_panic _ _ 3 5 ex_seed su [Remove 2] 4 (-3)); [lia|exact E| |lia]. split; [lia|]. exists 0. cbn. lia.
  - apply (C107_every_sequence_of_calls _ _ 3 5 ex_seed su sk [Remove 2; Remove 4] (-3)); [lia|exact E|exact I| |lia]. split; [lia|]. exists 0. cbn. lia.
Qed.
