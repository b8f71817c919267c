(** C99: which subset RandomSubset returns. *)
From Coq Require Import ZArith Lia Bool String List Sorted.
From Verif Require Import Base BaseFacts Zmod Fields ModelScalar ModelXmd ModelRo ProofRand ProofZk ProofTranscript ModelPoly ModelGroup ModelCommit
  ModelZk ModelMega ModelDealing ModelSign ProofSign ModelProtocol ProofProtocol ProofRun ProofCorrupt ModelSubset PropSubset.
From Verif Require ToyShort.
Import ListNotations.
Open Scope Z_scope.

(** the j-th draw from a key stream among n entries: four bytes, big endian *)
Definition draw {X : Oracles} (key : bytes) (n : Z) (j : nat) : nat :=
  Z.to_nat (be_val (map (keystream key) (seq (4 * j) 4)) mod n).

Section Facts.
Context {X : Oracles} (HX : oracles_ok X).
Context {A : Type}.
Lemma asc_same : forall l m : list (Z * A), asc l -> asc m -> (forall e, In e l <-> In e m) -> l = m.
Proof.
  induction l as [|[k a] l IH]; intros m Hl Hm E.
  - destruct m as [|e m]; [reflexivity|]. destruct (proj2 (E e) (or_introl eq_refl)).
  - destruct m as [|[i b] m]; [destruct (proj1 (E (k, a)) (or_introl eq_refl))|].
    apply asc_cons in Hl, Hm. destruct Hl as [Hl Ll], Hm as [Hm Lm].
    assert (Q : (k, a) = (i, b)).
    { destruct (proj1 (E (k, a)) (or_introl eq_refl)) as [Q|Q]; [symmetry; exact Q|].
      destruct (proj2 (E (i, b)) (or_introl eq_refl)) as [Q'|Q']; [exact Q'|]. apply Lm in Q. apply Ll in Q'. cbn [fst] in Q, Q'. lia. }
    f_equal; [exact Q|]. apply IH; try assumption. intros e. split; intros He.
    + destruct (proj1 (E e) (or_intror He)) as [Q'|Q']; [|exact Q']. rewrite <- Q' in He. apply Ll in He. injection Q as -> _. cbn [fst] in He. lia.
    + destruct (proj2 (E e) (or_intror He)) as [Q'|Q']; [|exact Q']. rewrite <- Q' in He. apply Lm in He. injection Q as -> _. cbn [fst] in He. lia.
Qed.
Lemma zset_has k (a : A) l e : zlookup k l = None -> (In e (zset k a l) <-> e = (k, a) \/ In e l).
Proof.
  intros N. split; [apply zset_in|]. revert N. induction l as [|[i b] l IH]; cbn [zset zlookup]; intros N [->|H]; try (now left); try contradiction.
  - destruct (k <? i); [now left|]. destruct (Z.eqb_spec k i); [discriminate|]. right. apply IH; [exact N|now left].
  - destruct (k <? i); [now right|]. destruct (Z.eqb_spec k i); [discriminate|]. destruct H as [H|H]; [now left|]. right. apply IH; [exact N|now right].
Qed.

Lemma unless_empty {B} (l : list (Z * A)) (r r' : B) : l <> [] -> match l with [] => r' | _ :: _ => r end = r.
Proof. destruct l; [congruence|reflexivity]. Qed.

Context (shares : list (Z * A)) (Nd : NoDup (map fst shares)) (Hn : shares <> []) (e0 : Z * A) (key : bytes).
Let n := Z.of_nat (length shares).
Let pick j : Z * A := nth (draw key n j) shares e0.
Lemma n_pos : 0 < n.
Proof. unfold n. destruct shares; [congruence|cbn [length]; lia]. Qed.
Lemma pick_nth j : nth_error shares (draw key n j) = Some (pick j).
Proof.
  apply nth_error_nth'. unfold draw. pose proof n_pos. pose proof (Z.mod_pos_bound (be_val (map (keystream key) (seq (4 * j) 4))) n H). unfold n in *. lia.
Qed.
Fixpoint accs (m : nat) : list (Z * A) :=
  match m with
  | O => []
  | S m => match zlookup (fst (pick m)) (accs m) with Some _ => accs m | None => zset (fst (pick m)) (snd (pick m)) (accs m) end
  end.
Lemma accs_asc m : asc (accs m).
Proof. induction m as [|m IH]; cbn [accs]; [constructor|]. destruct (zlookup _ _); [exact IH|apply zset_asc, IH]. Qed.
Lemma accs_in m : forall e, In e (accs m) <-> exists j, (j < m)%nat /\ nth_error shares (draw key n j) = Some e.
Proof.
  induction m as [|m IH]; intros e; cbn [accs].
  - split; [intros []|intros (j & Hj & _); lia].
  - assert (Hp : pick m = (fst (pick m), snd (pick m))) by (destruct (pick m); reflexivity).
    assert (B : In e (match zlookup (fst (pick m)) (accs m) with Some _ => accs m | None => zset (fst (pick m)) (snd (pick m)) (accs m) end) <->
                e = pick m \/ In e (accs m)).
    { destruct (zlookup (fst (pick m)) (accs m)) as [v|] eqn:El.
      - split; [now right|]. intros [->|H]; [|exact H]. apply zlookup_in in El. rewrite Hp. replace (snd (pick m)) with v; [exact El|].
        apply IH in El. destruct El as (j & _ & Ej). apply nth_error_In in Ej. pose proof (nth_error_In _ _ (pick_nth m)) as Em. rewrite Hp in Em.
        apply (zlookup_some _ _ _ Nd) in Ej, Em. congruence.
      - rewrite Hp at 3. apply zset_has. exact El. }
    rewrite B, IH. split.
    + intros [->|(j & Hj & E)]; [exists m; split; [lia|apply pick_nth]|exists j; split; [lia|exact E]].
    + intros (j & Hj & E). destruct (Nat.eq_dec j m) as [->|]; [left; rewrite pick_nth in E; congruence|right; exists j; split; [lia|exact E]].
Qed.
Lemma loop_accs include sub : forall fuel m, subset_loop fuel shares (accs m) include (mkrng key (4 * m)) = Ok sub <->
  exists k, (m <= k <= m + fuel)%nat /\ Z.of_nat (length (accs k)) = include /\ sub = accs k /\
    forall j, (m <= j < k)%nat -> Z.of_nat (length (accs j)) <> include.
Proof.
  induction fuel as [|fuel IH]; intros m; cbn [subset_loop]; (destruct (Z.eqb_spec (Z.of_nat (length (accs m))) include) as [E|E];
    [split; [intros H; apply Ok_inj in H; exists m; split; [lia|split; [exact E|split; [now symmetry|intros; lia]]]|
             intros (k & Hk & _ & -> & H); f_equal; destruct (Nat.eq_dec m k) as [->|]; [reflexivity|destruct (H m ltac:(lia) E)]]|]).
  - rewrite (unless_empty shares _ _ Hn). split; [discriminate|]. intros (k & Hk & Ek & _). replace k with m in Ek by lia. contradiction.
  - rewrite (unless_empty shares _ _ Hn), uint32_spec. unfold ks_bytes, rng_skip. cbn [rng_key rng_pos].
    assert (U : 0 <= be_val (map (fun i => keystream key i) (seq (4 * m) 4))).
    { pose proof (uint32_nonneg HX (mkrng key (4 * m))) as U. rewrite uint32_spec in U. exact U. }
    rewrite Z.rem_mod_nonneg by (pose proof n_pos; unfold n in *; lia). fold n.
    change (Z.to_nat (be_val (map (fun i => keystream key i) (seq (4 * m) 4)) mod n)) with (draw key n m).
    unfold nth_or_panic. rewrite pick_nth, bind_Ok. replace (4 * m + 4)%nat with (4 * S m)%nat by lia.
    assert (Q : match zlookup (fst (pick m)) (accs m) with
                | Some _ => subset_loop fuel shares (accs m) include (mkrng key (4 * S m))
                | None => subset_loop fuel shares (zset (fst (pick m)) (snd (pick m)) (accs m)) include (mkrng key (4 * S m))
                end = subset_loop fuel shares (accs (S m)) include (mkrng key (4 * S m))) by (cbn [accs]; destruct (zlookup _ _); reflexivity).
    rewrite Q, IH. split; intros (k & Hk & Ek & Es & H); exists k.
    + split; [lia|]. split; [exact Ek|]. split; [exact Es|]. intros j Hj. destruct (Nat.eq_dec j m) as [->|]; [exact E|apply H; lia].
    + split; [|split; [exact Ek|split; [exact Es|intros j Hj; apply H; lia]]]. destruct (Nat.eq_dec k m) as [->|]; [contradiction|lia].
Qed.
Lemma least (P : nat -> Prop) (D : forall k, {P k} + {~ P k}) : forall k, P k -> exists j, (j <= k)%nat /\ P j /\ forall i, (i < j)%nat -> ~ P i.
Proof.
  intros k. induction k as [k IH] using (well_founded_induction Wf_nat.lt_wf). intros H.
  assert (C : (exists i, (i < k)%nat /\ P i) \/ forall i, (i < k)%nat -> ~ P i).
  { clear IH H. induction k as [|k IHk]; [right; intros; lia|]. destruct IHk as [(i & Hi & H)|H]; [left; exists i; split; [lia|exact H]|].
    destruct (D k) as [H'|H']; [left; exists k; split; [lia|exact H']|]. right. intros i Hi. destruct (Nat.eq_dec i k) as [->|]; [exact H'|apply H; lia]. }
  destruct C as [(i & Hi & Hp)|C]; [|exists k; split; [lia|split; assumption]].
  destruct (IH i Hi Hp) as (j & Hj & Hp' & Hm). exists j. split; [lia|split; assumption].
Qed.
Lemma loop_exact fuel include sub : subset_loop fuel shares [] include (mkrng key 0) = Ok sub <->
  asc sub /\ Z.of_nat (length sub) = include /\
  exists m, (m <= fuel)%nat /\ forall e, In e sub <-> exists j, (j < m)%nat /\ nth_error shares (draw key n j) = Some e.
Proof.
  change (@nil (Z * A)) with (accs 0). change (mkrng key 0) with (mkrng key (4 * 0)). rewrite loop_accs. split.
  - intros (k & Hk & Ek & -> & _). split; [apply accs_asc|]. split; [exact Ek|]. exists k. split; [lia|apply accs_in].
  - intros (Ha & Hl & m & Hm & Hs).
    assert (Em : sub = accs m) by (apply asc_same; [exact Ha|apply accs_asc|intros e; rewrite Hs, accs_in; reflexivity]).
    destruct (least (fun k => Z.of_nat (length (accs k)) = include) (fun k => Z.eq_dec _ _) m) as (k & Hk & Ek & Hmin); [now rewrite <- Em|].
    exists k. split; [lia|]. split; [exact Ek|]. split; [|intros j Hj; apply Hmin; lia].
    rewrite Em. symmetry.
    assert (I : incl (accs k) (accs m)).
    { intros e He. apply accs_in in He. apply accs_in. destruct He as (j & Hj & E). exists j. split; [lia|exact E]. }
    apply asc_same; [apply accs_asc|apply accs_asc|]. intros e. split; [apply I|].
    apply NoDup_length_incl; [apply (NoDup_map_inv fst), asc_nodup, accs_asc| |exact I]. rewrite Em in Hl. lia.
Qed.
End Facts.

(** C99: the seed is fixed, so the draws are; RandomSubset returns the entries
    drawn, in the order of their keys, as soon as there are as many different
    ones as wanted, and returns nothing else *)
Theorem C99_subset_exact : forall (X : Oracles) (HX : oracles_ok X), exists key, random_seed = Ok key /\
  forall (A : Type) (shares : list (Z * A)), NoDup (map fst shares) -> shares <> [] ->
  forall fuel include sub, random_subset fuel shares include = Ok sub <->
    StronglySorted Z.lt (map fst sub) /\ Z.of_nat (length sub) = include /\
    exists m, (m <= fuel)%nat /\ forall e, In e sub <-> exists j, (j < m)%nat /\ nth_error shares (draw key (Z.of_nat (length shares)) j) = Some e.
Proof.
  intros X HX. destruct (seed_from_rng_total HX (mkrng (repeat 0 32) 0)) as (key & rn & E & L). exists key.
  assert (R : random_seed = Ok key) by (unfold random_seed; rewrite E; reflexivity). split; [exact R|].
  intros A shares Nd Hn fuel include sub. unfold random_subset. rewrite R, bind_Ok, seed_rng_ok by exact L. rewrite bind_Ok.
  destruct shares as [|e0 shares]; [congruence|]. apply (loop_exact HX (e0 :: shares) Nd Hn e0 key).
Qed.
Print Assumptions C99_subset_exact.

(** test values: two of three entries, found after some repeated draws *)
Section Ex.
Existing Instance ToyShort.shortX.
Example C99_ex_exact : NoDup (map fst [(5, 10); (1, 11); (2, 12)]) /\ random_subset 20 [(5, 10); (1, 11); (2, 12)] 2 = Ok [(2, 12); (5, 10)].
Proof. split; [|vm_compute; reflexivity]. cbn [map fst]. repeat constructor; cbn [In]; lia. Qed.
Example C99_ex_draws : match random_seed with Ok key => map (draw key 3) [0; 1; 2]%nat = [0; 0; 0]%nat | _ => False end.
Proof. vm_compute. reflexivity. Qed.
End Ex.
