(** C112: which random polynomials a dealing shares. *)
From Coq Require Import ZArith Lia Bool String List.
From Verif Require Import Base BaseFacts Zmod Fields ModelScalar ProofScalar ModelXmd ModelRo ProofRand ProofZk ProofTranscript ModelPoly ProofPoly ModelGroup
  ModelCommit ModelZk ModelMega ModelDealing ProofSign ProofMega ProofRun PropPolyRandom.
From Verif Require Import Toy ToyShort.
Import ListNotations.
Open Scope Z_scope.

Section Facts.
Context {X : Oracles} (HX : oracles_ok X) {GO : Grp}.
Lemma map_coeff {A} (f : Fq -> A) (po : list Fq) n : length po = n -> map (fun i => f (coeff po i)) (seq 0 n) = map f po.
Proof.
  intros <-. induction po as [|c po IH] using rev_ind; [reflexivity|]. rewrite app_length. cbn [length]. rewrite Nat.add_1_r, seq_S, !map_app. cbn [map Nat.add].
  f_equal; [|unfold coeff; rewrite nth_middle; reflexivity]. rewrite <- IH. apply map_ext_in. intros i Hi. apply in_seq in Hi. unfold coeff. now rewrite app_nth1 by lia.
Qed.
Lemma map_coeff2 {A} (f : Fq -> Fq -> A) : forall (va ma : list Fq) n, length va = n -> length ma = n ->
  map (fun i => f (coeff va i) (coeff ma i)) (seq 0 n) = map (fun c => f (fst c) (snd c)) (combine va ma).
Proof.
  induction va as [|v va IH]; intros [|m ma] n <-; cbn [length]; intros L; try discriminate; [reflexivity|].
  cbn [seq map combine fst snd]. f_equal. rewrite <- seq_shift, map_map. rewrite <- (IH ma (length va) eq_refl) by congruence. reflexivity.
Qed.
Lemma single_cm po num rc d ad seed ct cm : encrypt_and_commit_single po num rc d ad seed = Ok (ct, cm) -> Z.of_nat (length po) = num ->
  cm = CSimple (map (fun c => smul c genG) po).
Proof.
  unfold encrypt_and_commit_single, simple_create. destruct (encrypt_single _ _ _ _ _); cbn [bind]; try discriminate.
  destruct (num <? _); cbn [bind]; try discriminate. intros H L. apply Ok_inj in H. apply (f_equal snd) in H. cbn [snd] in H. rewrite <- H. f_equal.
  apply (map_coeff (fun c => smul c genG)). lia.
Qed.
Lemma pair_cm va ma num rc d ad seed ct cm : encrypt_and_commit_pair va ma num rc d ad seed = Ok (ct, cm) ->
  Z.of_nat (length va) = num -> Z.of_nat (length ma) = num ->
  cm = CPedersen (map (fun c => gadd (smul (fst c) genG) (smul (snd c) genH)) (combine va ma)).
Proof.
  unfold encrypt_and_commit_pair, pedersen_create. destruct (encrypt_pair _ _ _ _ _); cbn [bind]; try discriminate.
  destruct (_ || _); cbn [bind]; try discriminate. intros H L L'. apply Ok_inj in H. apply (f_equal snd) in H. cbn [snd] in H. rewrite <- H. f_equal.
  apply (map_coeff2 (fun a b => gadd (smul a genG) (smul b genH))); lia.
Qed.
End Facts.

(** C112: the polynomials of a dealing come one after the other from the key
    stream of the seed derived for them: the values and then the masks of a
    random dealing; what follows the shared value of a resharing; for a product
    the constant of the mask, the rest of the values and the rest of the masks.
    The commitment is to these coefficients. *)
Theorem C112_dealings : forall (X : Oracles) (HX : oracles_ok X) (GO : Grp) sh seed th rc dealer ad d,
  new_dealing sh seed th rc dealer ad = Ok d -> sh <> SOther ->
  exists key, seed_derive seed (str "ic-crypto-tecdsa-create-dealing-polynomials") = Ok key /\
  let pair (va ma : list Fq) := CPedersen (map (fun c => gadd (smul (fst c) genG) (smul (snd c) genH)) (combine va ma)) in
  match sh with
  | SRandom => exists va ma e, drawn_to key 0 (va ++ ma) e /\ Z.of_nat (length va) = th /\ Z.of_nat (length ma) = th /\ d_cm d = pair va ma
  | SReshareUnmasked s | SReshareMasked s _ =>
      exists l e, drawn_to key 0 l e /\ Z.of_nat (length (s :: l)) = th /\ d_cm d = CSimple (map (fun c => smul c genG) (s :: l))
  | STimes l r _ => exists pm va ma e, drawn_to key 0 (pm :: va ++ ma) e /\ Z.of_nat (length (pm :: va)) = th /\ Z.of_nat (length (pm :: ma)) = th /\
      d_cm d = pair (fmul l r :: va) (pm :: ma)
  | SOther => False
  end.
Proof.
  intros X HX GO sh seed th rc dealer ad d E So. unfold new_dealing in E. destruct (_ || _); [discriminate|]. fold poly_dst.
  destruct (new_seed_total HX seed poly_dst) as (key & Ek & Lk). unfold seed_derive in *. rewrite Ek, bind_Ok, (seed_rng_ok key Lk), bind_Ok in E.
  exists key. split; [exact Ek|]. cbv zeta. destruct (new_seed seed mega_dst) as [ms| | |]; try discriminate. rewrite bind_Ok in E.
  assert (APP : forall a b p p1 p2, drawn_to key p a p1 -> drawn_to key p1 b p2 -> drawn_to key p (a ++ b) p2).
  { induction a as [|s a IH]; intros b p p1 p2; cbn [drawn_to app]; [intros ->; auto|]. intros (k & Hk & Ev & Hm & D) D2. exists k. eauto. }
  destruct sh; [| | | |congruence].
  - destruct (poly_random th (mkrng key 0)) as [[va r1]| | |] eqn:Ev; try discriminate. rewrite bind_Ok in E.
    destruct (poly_random th r1) as [[ma r2]| | |] eqn:Em; try discriminate. rewrite bind_Ok in E. destruct r1 as [k1 p1].
    apply (proj1 (C112_random_polynomials X HX _ _ _)) in Ev. destruct Ev as (Lv & K1 & Dv). cbn [rng_key rng_pos] in *. subst k1.
    apply (proj1 (C112_random_polynomials X HX _ _ _)) in Em. destruct Em as (Lm & _ & Dm).
    destruct (encrypt_and_commit_pair va ma th rc dealer ad ms) as [[ct cm]| | |] eqn:Ee; try discriminate. rewrite bind_Ok in E.
    apply Ok_inj in E. exists va, ma, (rng_pos r2). split; [eapply APP; eassumption|]. split; [exact Lv|]. split; [exact Lm|].
    rewrite <- E. cbn [d_cm snd]. eapply pair_cm; eassumption.
  - destruct (poly_random_with_constant s th (mkrng key 0)) as [[va r1]| | |] eqn:Ev; try discriminate. rewrite bind_Ok in E.
    apply (proj2 (C112_random_polynomials X HX _ _ _)) in Ev. destruct Ev as (l & -> & Lv & _ & Dv).
    destruct (encrypt_and_commit_single (s :: l) th rc dealer ad ms) as [[ct cm]| | |] eqn:Ee; try discriminate. rewrite bind_Ok in E.
    apply Ok_inj in E. exists l, (rng_pos r1). split; [exact Dv|]. split; [exact Lv|]. rewrite <- E. cbn [d_cm snd]. eapply single_cm; eassumption.
  - destruct (poly_random_with_constant s th (mkrng key 0)) as [[va r1]| | |] eqn:Ev; try discriminate. rewrite bind_Ok in E.
    apply (proj2 (C112_random_polynomials X HX _ _ _)) in Ev. destruct Ev as (l & -> & Lv & _ & Dv).
    destruct (encrypt_and_commit_single (s :: l) th rc dealer ad ms) as [[ct cm]| | |] eqn:Ee; try discriminate. rewrite bind_Ok in E.
    destruct (new_seed seed eqo_dst) as [ps| | |]; try discriminate. rewrite bind_Ok in E.
    destruct (eqo_create ps s m ad) as [pf| | |]; try discriminate. rewrite bind_Ok in E.
    apply Ok_inj in E. exists l, (rng_pos r1). split; [exact Dv|]. split; [exact Lv|]. rewrite <- E. cbn [d_cm snd]. eapply single_cm; eassumption.
  - destruct (random_scalar (mkrng key 0)) as [[pm r0]| | |] eqn:E0; try discriminate. rewrite bind_Ok in E.
    apply (random_iff HX) in E0. destruct E0 as (k & Hk & Epm & Hmin & ->).
    destruct (poly_random_with_constant (fmul l r) th (mkrng key (0 + 32 * k))) as [[va r1]| | |] eqn:Ev; try discriminate. rewrite bind_Ok in E.
    apply (proj2 (C112_random_polynomials X HX _ _ _)) in Ev. destruct Ev as (v & -> & Lv & K1 & Dv). destruct r1 as [k1 p1]. cbn [rng_key rng_pos] in *. subst k1.
    destruct (poly_random_with_constant pm th (mkrng key p1)) as [[ma r2]| | |] eqn:Em; try discriminate. cbn [or_panic] in E. rewrite bind_Ok in E.
    apply (proj2 (C112_random_polynomials X HX _ _ _)) in Em. destruct Em as (m & -> & Lm & _ & Dm).
    destruct (encrypt_and_commit_pair (fmul l r :: v) (pm :: m) th rc dealer ad ms) as [[ct cm]| | |] eqn:Ee; try discriminate. rewrite bind_Ok in E.
    destruct (new_seed seed prod_dst) as [ps| | |]; try discriminate. rewrite bind_Ok in E.
    destruct (or_panic (prod_create ps l r rm (fmul l r) pm ad)) as [pf| | |]; try discriminate. rewrite bind_Ok in E.
    apply Ok_inj in E. exists pm, v, m, (rng_pos r2). split; [exists k; split; [exact Hk|]; split; [exact Epm|]; split; [exact Hmin|]; eapply APP; eassumption|].
    split; [exact Lv|]. split; [exact Lm|]. rewrite <- E. cbn [d_cm snd]. eapply pair_cm; eassumption.
Qed.
Print Assumptions C112_dealings.

(** test values: a dealing of each kind *)
Section Ex.
Existing Instance ToyShort.shortX.
Existing Instance toyG.
Example C112_ex_dealings :
  forallb (fun sh => is_ok (new_dealing sh [1] 2 [genG; genG; genG] 4 (str "ad"))) [SRandom; SReshareUnmasked fone; SReshareMasked fone fone; STimes fone fone fone] = true.
Proof. vm_compute. reflexivity. Qed.
End Ex.
