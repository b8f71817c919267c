(** MEGa encryption and decryption. *)
From Coq Require Import ZArith Lia Bool String List Ring Field Permutation.
From Verif Require Import Base BaseFacts Zmod Fields ModelScalar ProofScalar ModelXmd ProofXmd ModelRo SpecRo ProofRo ProofRand
  SpecPoly ModelPoly ProofPoly ModelGroup GroupFacts ModelCommit ModelZk ModelMega ProofZk ProofOracles.
Import ListNotations.
Open Scope Z_scope.

Section Mega.
Context {X : Oracles} (HX : oracles_ok X) {GO : Grp} {GL : GrpLaws GO}.

Lemma new_seed_total v d : exists s, seed_derive v d = Ok s /\ blen s = 32.
Proof.
  unfold seed_derive, new_seed. destruct (expand_ok HX v d 32 ltac:(lia)) as [o E]. exists (copy_into 32 o). rewrite E.
  split; [reflexivity|]. apply (expand_length HX) in E. unfold blen, copy_into. rewrite app_length, firstn_length, repeat_length. lia.
Qed.
Lemma scalar_from_seed_cases s : blen s = 32 -> (exists x, scalar_from_seed s = Ok x) \/ scalar_from_seed s = Diverge.
Proof.
  intros H. unfold scalar_from_seed. rewrite seed_rng_ok by assumption. cbn [bind].
  destruct (random_scalar_cases (mkrng s 0)) as [(x & r & ->)| ->]; cbn [bind fst]; eauto.
Qed.

Lemma mega_hash_total t d r ad pk e ss :
  exists l, mega_hash t d r ad pk e ss = Ok l /\ length l = match t with MTsingle => 1 | MTpair => 2 end%nat.
Proof.
  unfold mega_hash. destruct (ro_scalars_total HX (mega_ro t d r ad pk e ss) (match t with MTsingle => 1 | MTpair => 2 end)) as (l & E & L).
  - unfold mega_ro, add_point at 1. apply run1_nonempty. apply (pt_call_wf "shared_secret"); reflexivity.
  - destruct t; lia.
  - destruct t; lia.
  - exists l. split; [exact E|]. destruct t; lia.
Qed.
Lemma pop_base_total t ad d e : exists b, pop_base t ad d e = Ok b.
Proof.
  unfold pop_base, ro_output_point, ro_form.
  assert (N : ro_inputs (pop_ro t ad d e) <> []).
  { unfold pop_ro, add_point at 1. apply run1_nonempty. apply (pt_call_wf "ephemeral_key"); reflexivity. }
  destruct (ro_inputs (pop_ro t ad d e)) as [|i0 l0]; [congruence|]. cbn [bind]. apply h2p_total.
Qed.
Lemma guard_cases b : guard b = Ok tt \/ guard b = Err. Proof. destruct b; auto. Qed.
Lemma dlog_verify_cases pf g h gx hx ad : dlog_verify pf g h gx hx ad = Ok tt \/ dlog_verify pf g h gx hx ad = Err.
Proof.
  unfold dlog_verify. destruct (dlog_recover g h gx hx pf) as [a b].
  destruct (dlog_challenge_total HX g h gx hx a b ad) as [c ->]. apply guard_cases.
Qed.
Lemma eqo_verify_cases pf a b ad : eqo_verify pf a b ad = Ok tt \/ eqo_verify pf a b ad = Err.
Proof.
  unfold eqo_verify. destruct (eqo_challenge_total HX genG genH a b (eqo_recover genH a b pf) ad) as [c ->]. apply guard_cases.
Qed.
Lemma prod_verify_cases pf l r pr ad : prod_verify pf l r pr ad = Ok tt \/ prod_verify pf l r pr ad = Err.
Proof.
  unfold prod_verify. destruct (prod_recover genH l r pr pf) as [a b].
  destruct (prod_challenge_total HX genG genH l r pr a b ad) as [c ->]. apply guard_cases.
Qed.
Lemma verify_pop_cases t ad d e p pf : verify_pop t ad d e p pf = Ok tt \/ verify_pop t ad d e p pf = Err.
Proof. unfold verify_pop. destruct (pop_base_total t ad d e) as [b ->]. apply dlog_verify_cases. Qed.

Lemma eph_and_pop_spec t seed ad d beta v pop pf : eph_and_pop t seed ad d = Ok (beta, v, pop, pf) ->
  v = mul_by_g beta /\ verify_pop t ad d v pop pf = Ok tt.
Proof.
  unfold eph_and_pop. destruct (seed_derive seed (eph_dst t)) as [s1| | |]; cbn [bind]; try discriminate.
  destruct (scalar_from_seed s1) as [b| | |]; cbn [bind]; try discriminate.
  destruct (pop_base t ad d (mul_by_g b)) as [pb| | |] eqn:Eb; cbn [bind]; try discriminate.
  destruct (seed_derive seed (pop_proof_dst t)) as [s2| | |]; cbn [bind]; try discriminate.
  destruct (dlog_create s2 b genG pb ad) as [pf'| | |] eqn:Ep; cbn [bind]; try discriminate.
  intros H. injection H as <- <- <- <-. split; [reflexivity|].
  unfold verify_pop. rewrite Eb. cbn [bind]. apply (dlog_complete _ _ _ _ _ _ Ep).
Qed.
Lemma eph_and_pop_cases t seed ad d : (exists r, eph_and_pop t seed ad d = Ok r) \/ eph_and_pop t seed ad d = Diverge.
Proof.
  unfold eph_and_pop. destruct (new_seed_total seed (eph_dst t)) as (s1 & -> & L1). cbn [bind].
  destruct (scalar_from_seed_cases s1 L1) as [[b ->]| ->]; cbn [bind]; [|auto].
  destruct (pop_base_total t ad d (mul_by_g b)) as [pb ->]. cbn [bind].
  destruct (new_seed_total seed (pop_proof_dst t)) as (s2 & -> & L2). cbn [bind].
  destruct (dlog_create_total HX s2 b genG pb ad L2) as [[pf ->]| ->]; cbn [bind]; eauto.
Qed.

Lemma combine3_nth {A B} (rc : list A) (pl : list B) i a b : nth_error rc i = Some a -> nth_error pl i = Some b ->
  nth_error (combine (seq 0 (length rc)) (combine rc pl)) i = Some (i, (a, b)).
Proof.
  intros Ha Hb.
  assert (G' : forall k rc pl i, nth_error rc i = Some a -> nth_error pl i = Some b ->
    nth_error (combine (seq k (length rc)) (combine rc pl)) i = Some ((k + i)%nat, (a, b))).
  { clear. intros k rc. revert k. induction rc as [|x rc IH]; intros k pl i Ha Hb; [destruct i; discriminate|].
    destruct pl as [|y pl]; [destruct i; discriminate|]. cbn [length seq combine]. destruct i as [|i]; cbn [nth_error] in *.
    - injection Ha as ->. injection Hb as ->. rewrite Nat.add_0_r. reflexivity.
    - rewrite (IH (S k) pl i Ha Hb). f_equal. f_equal. lia. }
  apply (G' 0%nat); assumption.
Qed.

(** what encryption produces *)
Lemma encrypt_single_spec seed pl rc d ad m : encrypt_single seed pl rc d ad = Ok m ->
  length pl = length rc /\ pl <> [] /\
  exists beta pop pf ct, m = MSingle (mul_by_g beta) pop pf ct /\ length ct = length rc /\
    verify_pop MTsingle ad d (mul_by_g beta) pop pf = Ok tt /\
    forall i pk pt, nth_error rc i = Some pk -> nth_error pl i = Some pt ->
      exists h, mega_hash MTsingle d (Z.of_nat i) ad pk (mul_by_g beta) (smul beta pk) = Ok [h] /\
        nth_error ct i = Some (fadd h pt).
Proof.
  unfold encrypt_single, check_plaintexts. destruct (Nat.eqb (length pl) (length rc)) eqn:El; cbn [negb]; [|discriminate].
  apply Nat.eqb_eq in El. destruct pl as [|p0 pl0] eqn:Ep; [discriminate|]. rewrite <- Ep in *. cbn [bind].
  destruct (eph_and_pop MTsingle seed ad d) as [[[[beta v] pop] pf]| | |] eqn:Ee; cbn [bind]; try discriminate.
  apply eph_and_pop_spec in Ee. destruct Ee as [-> V].
  match goal with |- context [mapM ?f ?l] => destruct (mapM f l) as [ct| | |] eqn:Em end; cbn [bind]; try discriminate.
  intros H. injection H as <-. split; [exact El|]. split; [rewrite Ep; discriminate|].
  exists beta, pop, pf, ct. apply mapM_ok in Em. destruct Em as [Lc Hm].
  split; [reflexivity|]. split. { rewrite Lc, !combine_length, seq_length. lia. }
  split; [exact V|]. intros i pk pt Hk Ht.
  pose proof (combine3_nth rc pl i pk pt Hk Ht) as N. destruct (Hm i _ N) as (c & Nc & Hc).
  destruct (mega_hash_total MTsingle d (Z.of_nat i) ad pk (mul_by_g beta) (smul beta pk)) as (l & E & L).
  rewrite E in Hc. destruct l as [|h [|h' l]]; cbn [length] in L; try lia. cbn in Hc. injection Hc as <-.
  exists h. split; [exact E|exact Nc].
Qed.
Lemma encrypt_pair_spec seed pl rc d ad m : encrypt_pair seed pl rc d ad = Ok m ->
  length pl = length rc /\ pl <> [] /\
  exists beta pop pf ct, m = MPair (mul_by_g beta) pop pf ct /\ length ct = length rc /\
    verify_pop MTpair ad d (mul_by_g beta) pop pf = Ok tt /\
    forall i pk pt, nth_error rc i = Some pk -> nth_error pl i = Some pt ->
      exists h0 h1, mega_hash MTpair d (Z.of_nat i) ad pk (mul_by_g beta) (smul beta pk) = Ok [h0; h1] /\
        nth_error ct i = Some (fadd h0 (fst pt), fadd h1 (snd pt)).
Proof.
  unfold encrypt_pair, check_plaintexts. destruct (Nat.eqb (length pl) (length rc)) eqn:El; cbn [negb]; [|discriminate].
  apply Nat.eqb_eq in El. destruct pl as [|p0 pl0] eqn:Ep; [discriminate|]. rewrite <- Ep in *. cbn [bind].
  destruct (eph_and_pop MTpair seed ad d) as [[[[beta v] pop] pf]| | |] eqn:Ee; cbn [bind]; try discriminate.
  apply eph_and_pop_spec in Ee. destruct Ee as [-> V].
  match goal with |- context [mapM ?f ?l] => destruct (mapM f l) as [ct| | |] eqn:Em end; cbn [bind]; try discriminate.
  intros H. injection H as <-. split; [exact El|]. split; [rewrite Ep; discriminate|].
  exists beta, pop, pf, ct. apply mapM_ok in Em. destruct Em as [Lc Hm].
  split; [reflexivity|]. split. { rewrite Lc, !combine_length, seq_length. lia. }
  split; [exact V|]. intros i pk [p q] Hk Ht.
  pose proof (combine3_nth rc pl i pk (p, q) Hk Ht) as N. destruct (Hm i _ N) as (c & Nc & Hc).
  destruct (mega_hash_total MTpair d (Z.of_nat i) ad pk (mul_by_g beta) (smul beta pk)) as (l & E & L).
  rewrite E in Hc. destruct l as [|h0 [|h1 [|h2 l]]]; cbn [length] in L; try lia. cbn in Hc. injection Hc as <-.
  exists h0, h1. split; [exact E|exact Nc].
Qed.

Lemma mapM_cases {A B} (f : A -> res B) l : (forall a, In a l -> exists b, f a = Ok b) -> exists r, mapM f l = Ok r.
Proof.
  induction l as [|a l IH]; intros H; [exists []; reflexivity|]. cbn [mapM].
  destruct (H a (or_introl eq_refl)) as [b ->]. destruct IH as [r ->]; [intros; apply H; right; assumption|].
  cbn [bind]. eauto.
Qed.
Lemma encrypt_single_cases seed pl rc d ad : length pl = length rc -> pl <> [] ->
  (exists m, encrypt_single seed pl rc d ad = Ok m) \/ encrypt_single seed pl rc d ad = Diverge.
Proof.
  intros El Hn. unfold encrypt_single, check_plaintexts. rewrite El, Nat.eqb_refl. cbn [negb].
  destruct pl as [|p0 pl0] eqn:Ep; [congruence|]. rewrite <- Ep in *. cbn [bind].
  destruct (eph_and_pop_cases MTsingle seed ad d) as [[[[[beta v] pop] pf] ->]| ->]; cbn [bind]; [left|right; reflexivity].
  match goal with |- context [mapM ?f ?l] => destruct (mapM_cases f l) as [r ->]; [|cbn [bind]; eauto] end.
  intros [i [pk pt]] _. destruct (mega_hash_total MTsingle d (Z.of_nat i) ad pk v (smul beta pk)) as (l & -> & L).
  destruct l as [|h l]; cbn [length] in L; [lia|]. cbn. eauto.
Qed.
Lemma encrypt_pair_cases seed pl rc d ad : length pl = length rc -> pl <> [] ->
  (exists m, encrypt_pair seed pl rc d ad = Ok m) \/ encrypt_pair seed pl rc d ad = Diverge.
Proof.
  intros El Hn. unfold encrypt_pair, check_plaintexts. rewrite El, Nat.eqb_refl. cbn [negb].
  destruct pl as [|p0 pl0] eqn:Ep; [congruence|]. rewrite <- Ep in *. cbn [bind].
  destruct (eph_and_pop_cases MTpair seed ad d) as [[[[[beta v] pop] pf] ->]| ->]; cbn [bind]; [left|right; reflexivity].
  match goal with |- context [mapM ?f ?l] => destruct (mapM_cases f l) as [r ->]; [|cbn [bind]; eauto] end.
  intros [i [pk [p0' p1']]] _. destruct (mega_hash_total MTpair d (Z.of_nat i) ad pk v (smul beta pk)) as (l & -> & L).
  destruct l as [|h [|h' l]]; cbn [length] in L; try lia. cbn. eauto.
Qed.
Lemma encrypt_single_err seed pl rc d ad : length pl <> length rc \/ pl = [] -> encrypt_single seed pl rc d ad = Err.
Proof.
  unfold encrypt_single, check_plaintexts. intros [N| ->].
  - apply Nat.eqb_neq in N. rewrite N. reflexivity.
  - destruct (negb (_ =? _)%nat); reflexivity.
Qed.
Lemma encrypt_pair_err seed pl rc d ad : length pl <> length rc \/ pl = [] -> encrypt_pair seed pl rc d ad = Err.
Proof.
  unfold encrypt_pair, check_plaintexts. intros [N| ->].
  - apply Nat.eqb_neq in N. rewrite N. reflexivity.
  - destruct (negb (_ =? _)%nat); reflexivity.
Qed.

Lemma index_nth {A} (l : list A) i a : nth_error l i = Some a -> index l (Z.of_nat i) = Ok a.
Proof.
  intros H. unfold index, nth_or_panic. destruct (Z.ltb_spec (Z.of_nat i) 0); [lia|]. rewrite Nat2Z.id, H. reflexivity.
Qed.
Lemma nth_error_lt {A} (l : list A) i a : nth_error l i = Some a -> (i < length l)%nat.
Proof. intros H. apply nth_error_Some. congruence. Qed.

(** decryption *)
Lemma decrypt_single_honest seed pl rc d ad m i sk pt :
  encrypt_single seed pl rc d ad = Ok m -> nth_error rc i = Some (mul_by_g sk) -> nth_error pl i = Some pt ->
  m_decrypt m ad d (Z.of_nat i) sk (mul_by_g sk) = Ok (OSimple pt).
Proof.
  intros E Hk Ht. apply encrypt_single_spec in E. destruct E as (L & _ & beta & pop & pf & ct & -> & Lc & V & H).
  destruct (H i _ _ Hk Ht) as (h & Eh & Nc). unfold m_decrypt. cbn [m_verify_pop]. rewrite V. cbn [bind].
  unfold decrypt_single_ss. apply nth_error_lt in Hk. destruct (Z.leb_spec (Z.of_nat (length ct)) (Z.of_nat i)); [lia|].
  assert (S : smul sk (mul_by_g beta) = smul beta (mul_by_g sk)) by (unfold mul_by_g; gring).
  rewrite S, Eh. cbn [bind]. rewrite (index_nth _ _ _ Nc). cbn. f_equal. f_equal. ring.
Qed.
Lemma decrypt_pair_honest seed pl rc d ad m i sk pt :
  encrypt_pair seed pl rc d ad = Ok m -> nth_error rc i = Some (mul_by_g sk) -> nth_error pl i = Some pt ->
  m_decrypt m ad d (Z.of_nat i) sk (mul_by_g sk) = Ok (OPedersen (fst pt) (snd pt)).
Proof.
  intros E Hk Ht. apply encrypt_pair_spec in E. destruct E as (L & _ & beta & pop & pf & ct & -> & Lc & V & H).
  destruct (H i _ _ Hk Ht) as (h0 & h1 & Eh & Nc). unfold m_decrypt. cbn [m_verify_pop]. rewrite V. cbn [bind].
  unfold decrypt_pair_ss. apply nth_error_lt in Hk. destruct (Z.leb_spec (Z.of_nat (length ct)) (Z.of_nat i)); [lia|].
  assert (S : smul sk (mul_by_g beta) = smul beta (mul_by_g sk)) by (unfold mul_by_g; gring).
  rewrite S, Eh. cbn [bind]. rewrite (index_nth _ _ _ Nc). cbn [bind nth_or_panic nth_error fst snd]. f_equal. f_equal; ring.
Qed.
Lemma encrypt_single_valid seed pl rc d ad m : encrypt_single seed pl rc d ad = Ok m ->
  m_check_validity m (Z.of_nat (length rc)) ad d = Ok tt.
Proof.
  intros E. apply encrypt_single_spec in E. destruct E as (L & _ & beta & pop & pf & ct & -> & Lc & V & H).
  unfold m_check_validity. cbn [m_recipients bind]. rewrite Lc, Z.eqb_refl. exact V.
Qed.
Lemma encrypt_pair_valid seed pl rc d ad m : encrypt_pair seed pl rc d ad = Ok m ->
  m_check_validity m (Z.of_nat (length rc)) ad d = Ok tt.
Proof.
  intros E. apply encrypt_pair_spec in E. destruct E as (L & _ & beta & pop & pf & ct & -> & Lc & V & H).
  unfold m_check_validity. cbn [m_recipients bind]. rewrite Lc, Z.eqb_refl. exact V.
Qed.

(** all outcomes of decryption *)
Lemma decrypt_single_ss_cases e ct ad d i pk ss :
  (Z.of_nat (length ct) <= i -> decrypt_single_ss e ct ad d i pk ss = Err) /\
  (i < 0 -> decrypt_single_ss e ct ad d i pk ss = Panic) /\
  (0 <= i < Z.of_nat (length ct) -> exists c h, nth_error ct (Z.to_nat i) = Some c /\
     mega_hash MTsingle d i ad pk e ss = Ok [h] /\ decrypt_single_ss e ct ad d i pk ss = Ok (fsub c h)).
Proof.
  unfold decrypt_single_ss. destruct (mega_hash_total MTsingle d i ad pk e ss) as (l & E & L).
  destruct l as [|h [|h' l]]; cbn [length] in L; try lia.
  split; [|split]; intros H.
  - apply Z.leb_le in H. rewrite H. reflexivity.
  - destruct (Z.leb_spec (Z.of_nat (length ct)) i); [lia|]. rewrite E. cbn [bind]. unfold index.
    apply Z.ltb_lt in H. rewrite H. reflexivity.
  - destruct (Z.leb_spec (Z.of_nat (length ct)) i); [lia|]. rewrite E. cbn [bind]. unfold index, nth_or_panic.
    destruct (Z.ltb_spec i 0); [lia|]. destruct (nth_error ct (Z.to_nat i)) as [c|] eqn:N.
    + exists c, h. auto.
    + apply nth_error_None in N. lia.
Qed.
Lemma decrypt_pair_ss_cases e ct ad d i pk ss :
  (Z.of_nat (length ct) <= i -> decrypt_pair_ss e ct ad d i pk ss = Err) /\
  (i < 0 -> decrypt_pair_ss e ct ad d i pk ss = Panic) /\
  (0 <= i < Z.of_nat (length ct) -> exists c h0 h1, nth_error ct (Z.to_nat i) = Some c /\
     mega_hash MTpair d i ad pk e ss = Ok [h0; h1] /\
     decrypt_pair_ss e ct ad d i pk ss = Ok (fsub (fst c) h0, fsub (snd c) h1)).
Proof.
  unfold decrypt_pair_ss. destruct (mega_hash_total MTpair d i ad pk e ss) as (l & E & L).
  destruct l as [|h0 [|h1 [|h2 l]]]; cbn [length] in L; try lia.
  split; [|split]; intros H.
  - apply Z.leb_le in H. rewrite H. reflexivity.
  - destruct (Z.leb_spec (Z.of_nat (length ct)) i); [lia|]. rewrite E. cbn [bind]. unfold index.
    apply Z.ltb_lt in H. rewrite H. reflexivity.
  - destruct (Z.leb_spec (Z.of_nat (length ct)) i); [lia|]. rewrite E. cbn [bind]. unfold index, nth_or_panic.
    destruct (Z.ltb_spec i 0); [lia|]. destruct (nth_error ct (Z.to_nat i)) as [c|] eqn:N.
    + exists c, h0, h1. auto.
    + apply nth_error_None in N. lia.
Qed.
Lemma m_verify_pop_cases m ad d : m <> MNil -> m_verify_pop m ad d = Ok tt \/ m_verify_pop m ad d = Err.
Proof. intros N. destruct m; [apply verify_pop_cases|apply verify_pop_cases|congruence]. Qed.
Lemma m_decrypt_outcomes m n ad d i sk pk : m_recipients m = Ok n ->
  (m_verify_pop m ad d = Err -> m_decrypt m ad d i sk pk = Err) /\
  (m_verify_pop m ad d = Ok tt ->
     (n <= i -> m_decrypt m ad d i sk pk = Err) /\
     (i < 0 -> m_decrypt m ad d i sk pk = Panic) /\
     (0 <= i < n -> exists o, m_decrypt m ad d i sk pk = Ok o /\
        match m with MSingle _ _ _ _ => exists v, o = OSimple v | _ => exists v w, o = OPedersen v w end)).
Proof.
  intros R. split.
  - intros V. unfold m_decrypt. rewrite V. reflexivity.
  - intros V. unfold m_decrypt. rewrite V. cbn [bind].
    destruct m as [e p pf ct|e p pf ct|]; cbn [m_recipients] in R; [injection R as <-..|discriminate].
    + destruct (decrypt_single_ss_cases e ct ad d i pk (smul sk e)) as (A & B & C). split; [|split]; intros H.
      * rewrite A by assumption. reflexivity.
      * rewrite B by assumption. reflexivity.
      * destruct (C H) as (c & h & _ & _ & ->). cbn [bind]. eauto.
    + destruct (decrypt_pair_ss_cases e ct ad d i pk (smul sk e)) as (A & B & C). split; [|split]; intros H.
      * rewrite A by assumption. reflexivity.
      * rewrite B by assumption. reflexivity.
      * destruct (C H) as (c & h0 & h1 & _ & _ & ->). cbn [bind]. eauto.
Qed.
End Mega.
