(** The inputs of the random oracles of all protocol parts, side by side. *)
From Coq Require Import ZArith Lia Bool String List Permutation.
From Verif Require Import Base BaseFacts Zmod Fields ModelScalar ProofScalar ModelXmd ProofXmd ModelRo SpecRo ProofRo
  ModelPoly ModelGroup GroupFacts ModelCommit ModelZk ModelMega ModelDealing ModelComplaint ModelKey ModelSign ProofZk.
Import ListNotations.
Open Scope Z_scope.

Section Oracles.
Context {X : Oracles} {GO : Grp} {GL : GrpLaws GO}.

Definition sc_call (n : string) (s : Fq) : call := (str n, scalar_serialize_tagged s, ty_scalar).
Lemma sc_call_wf n s : 1 <=? blen (str n) = true -> blen (str n) <=? 255 = true -> call_wf (sc_call n s) = true.
Proof.
  intros H1 H2. unfold call_wf, sc_call, scalar_serialize_tagged. rewrite blen_cons.
  unfold blen at 3. rewrite scalar_serialize_length, H1, H2. reflexivity.
Qed.

(** everything that is ever hashed to a challenge, a mask, a point or a string *)
Inductive hashed :=
| HDlog (g h gx hx c1 c2 : G) (ad : bytes)                       (* zk/dlog.go *)
| HEqo (g h a b c : G) (ad : bytes)                              (* zk/equal_opening.go *)
| HProd (g h l r pr c1 c2 : G) (ad : bytes)                      (* zk/product.go *)
| HMega (t : mtype) (dealer recipient : Z) (ad : bytes) (pk eph ss : G)
| HPop (t : mtype) (ad : bytes) (dealer : Z) (eph : G)
| HAssoc (ad : bytes) (receiver dealer : Z) (pk : G)
| HRho (hm randomness : bytes) (presig : G) (tweak : Fq).

Definition oracle (s : hashed) : ro :=
  match s with
  | HDlog g h gx hx c1 c2 ad => dlog_ro g h gx hx c1 c2 ad
  | HEqo g h a b c ad => eqo_ro g h a b c ad
  | HProd g h l r pr c1 c2 ad => prod_ro g h l r pr c1 c2 ad
  | HMega t d r ad pk e ss => mega_ro t d r ad pk e ss
  | HPop t ad d e => pop_ro t ad d e
  | HAssoc ad r d pk => assoc_ro ad r d pk
  | HRho hm rn ps tw => rho_ro hm rn ps tw
  end.
Definition kind (s : hashed) : nat :=
  match s with
  | HDlog _ _ _ _ _ _ _ => 0 | HEqo _ _ _ _ _ _ => 1 | HProd _ _ _ _ _ _ _ _ => 2
  | HMega _ _ _ _ _ _ _ => 3 | HPop _ _ _ _ => 4 | HAssoc _ _ _ _ => 5 | HRho _ _ _ _ => 6
  end%nat.
Definition calls (s : hashed) : list call :=
  match s with
  | HDlog g h gx hx c1 c2 ad => dlog_calls g h gx hx c1 c2 ad
  | HEqo g h a b c ad => eqo_calls g h a b c ad
  | HProd g h l r pr c1 c2 ad => prod_calls g h l r pr c1 c2 ad
  | HMega t d r ad pk e ss =>
      [int_call "dealer_index" d; int_call "recipient_index" r; by_call "associated_data" ad; pt_call "public_key" pk;
       pt_call "ephemeral_key" e; pt_call "shared_secret" ss]
  | HPop t ad d e => [by_call "associated_data" ad; int_call "dealer_index" d; pt_call "ephemeral_key" e]
  | HAssoc ad r d pk => [by_call "associated_data" ad; int_call "receiver_index" r; int_call "dealer_index" d;
       pt_call "receiver_public_key" pk]
  | HRho hm rn ps tw => [by_call "randomness" rn; by_call "hashed_message" hm; pt_call "pre_sig" ps; sc_call "key_tweak" tw]
  end.
Lemma oracle_run s : oracle s = run (new_ro (ro_dst (oracle s))) (calls s).
Proof.
  assert (D : forall d l, ro_dst (run (new_ro d) l) = d) by (intros d l; rewrite run_dst; reflexivity).
  destruct s; cbn [oracle calls].
  - rewrite dlog_ro_run, D. reflexivity.
  - rewrite eqo_ro_run, D. reflexivity.
  - rewrite prod_ro_run, D. reflexivity.
  - match goal with |- _ = run _ ?l => assert (E : mega_ro t dealer recipient ad pk eph ss = run (new_ro (enc_dst t)) l)
      by (unfold mega_ro, run, add_point, add_bytes, add_uint32, by_call, pt_call, int_call; cbn [fold_left run1]; reflexivity) end.
    rewrite E, D. reflexivity.
  - match goal with |- _ = run _ ?l => assert (E : pop_ro t ad dealer eph = run (new_ro (pop_base_dst t)) l)
      by (unfold pop_ro, run, add_point, add_bytes, add_uint32, by_call, pt_call, int_call; cbn [fold_left run1]; reflexivity) end.
    rewrite E, D. reflexivity.
  - match goal with |- _ = run _ ?l => assert (E : assoc_ro ad receiver dealer pk = run (new_ro (str "ic-crypto-tecdsa-complaint-proof-assoc-data")) l)
      by (unfold assoc_ro, run, add_point, add_bytes, add_uint32, by_call, pt_call, int_call; cbn [fold_left run1]; reflexivity) end.
    rewrite E, D. reflexivity.
  - match goal with |- _ = run _ ?l => assert (E : rho_ro hm randomness presig tweak = run (new_ro (str "ic-crypto-tecdsa-rerandomize-presig")) l)
      by (unfold rho_ro, run, add_point, add_bytes, add_scalar, by_call, pt_call, sc_call; cbn [fold_left run1]; reflexivity) end.
    rewrite E, D. reflexivity.
Qed.
Lemma form_eq s s' : ro_form (oracle s) = ro_form (oracle s') <-> forall n, content (calls s) n = content (calls s') n.
Proof. rewrite (oracle_run s), (oracle_run s'). apply ro_form_eq_iff. Qed.
End Oracles.

Ltac seek :=
  repeat first
   [ rewrite content_skip by reflexivity
   | rewrite content_hit by (first [ reflexivity | apply pt_call_wf; reflexivity | apply int_call_wf; reflexivity
                                   | apply sc_call_wf; reflexivity | apply by_call_wf; [reflexivity|reflexivity|assumption] ])
   | rewrite content_bad by (apply by_call_bad; assumption) ].
Ltac seek_in H :=
  repeat first
   [ rewrite content_skip in H by reflexivity
   | rewrite content_hit in H by (first [ reflexivity | apply pt_call_wf; reflexivity | apply int_call_wf; reflexivity
                                   | apply sc_call_wf; reflexivity | apply by_call_wf; [reflexivity|reflexivity|assumption] ])
   | rewrite content_bad in H by (apply by_call_bad; assumption) ].

Section Separation.
Context {X : Oracles} {GO : Grp} {GL : GrpLaws GO}.

(** the name of the point input found in one kind only *)
Definition marker (k : nat) : string :=
  match k with
  | 0 => "instance_g_x" | 1 => "instance_a" | 2 => "instance_lhs" | 3 => "shared_secret"
  | 4 => "ephemeral_key" | 5 => "receiver_public_key" | _ => "pre_sig"
  end%nat%string.
Lemma marker_present s : content (calls s) (str (marker (kind s))) <> None.
Proof.
  destruct s; cbn [calls kind marker];
    unfold dlog_calls, eqo_calls, prod_calls, by_call, pt_call, int_call, sc_call; seek; discriminate.
Qed.
Lemma marker_absent s k : k <> kind s -> (k = 4%nat -> kind s <> 3%nat) -> (k <= 6)%nat ->
  content (calls s) (str (marker k)) = None.
Proof.
  intros N N4 H.
  do 7 (destruct k as [|k]; [destruct s; cbn [calls kind marker] in *; try congruence; try (exfalso; apply N4; reflexivity);
    unfold dlog_calls, eqo_calls, prod_calls, by_call, pt_call, int_call, sc_call; seek; reflexivity|]).
  lia.
Qed.
Lemma kind_bound s : (kind s <= 6)%nat. Proof. destruct s; cbn [kind]; lia. Qed.
Lemma forms_same_kind s s' : ro_form (oracle s) = ro_form (oracle s') -> kind s = kind s'.
Proof.
  intros E. pose proof (proj1 (form_eq s s') E) as C.
  pose proof (kind_bound s). pose proof (kind_bound s').
  destruct (Nat.eq_dec (kind s) (kind s')) as [|N]; [assumption|exfalso].
  destruct (Nat.eq_dec (kind s) 4) as [E4|N4].
  - apply (marker_present s'). rewrite <- C. apply marker_absent; [congruence| |lia]. intros _. congruence.
  - apply (marker_present s). rewrite C. apply marker_absent; [congruence| |lia]. intros E4. congruence.
Qed.
End Separation.

Section Injective.
Context {X : Oracles} {GO : Grp} {GL : GrpLaws GO}.

Lemma by_len_cases (v : bytes) : blen v <= 255 \/ 255 < blen v. Proof. lia. Qed.
Lemma u32_bytes_inj a b : be_bytes 8 (u32 a) = be_bytes 8 (u32 b) -> u32 a = u32 b.
Proof.
  intros H. apply (f_equal be_val) in H. rewrite !be_val_be_bytes in H.
  assert (R : forall z, 0 <= u32 z < 2^32) by (intros z; unfold u32; apply Z.mod_pos_bound; lia).
  pose proof (R a). pose proof (R b). change (256 ^ Z.of_nat 8) with (2^64) in H.
  rewrite (Z.mod_small (u32 a)), (Z.mod_small (u32 b)) in H by lia. exact H.
Qed.
Lemma scalar_tagged_inj a b : scalar_serialize_tagged a = scalar_serialize_tagged b -> a = b.
Proof.
  unfold scalar_serialize_tagged. intros H. apply cons_eq in H. destruct H as [_ H].
  pose proof (k256_roundtrip a) as A. rewrite H, k256_roundtrip in A. congruence.
Qed.
Lemma pt_some a b (t t' : Z) : Some (ser_tagged a, t) = Some (ser_tagged b, t') -> a = b.
Proof. intros H. apply ser_tagged_inj. congruence. Qed.
Lemma by_some (a b : bytes) (t t' : Z) : Some (a, t) = Some (b, t') -> a = b.
Proof. congruence. Qed.
Lemma int_some a b (t t' : Z) : Some (be_bytes 8 (u32 a), t) = Some (be_bytes 8 (u32 b), t') -> u32 a = u32 b.
Proof. intros H. apply u32_bytes_inj. congruence. Qed.
Lemma sc_some a b (t t' : Z) : Some (scalar_serialize_tagged a, t) = Some (scalar_serialize_tagged b, t') -> a = b.
Proof. intros H. apply scalar_tagged_inj. congruence. Qed.
End Injective.

Ltac at_name C n :=
  let H := fresh in pose proof (C (str n)) as H; cbn [calls] in H;
  unfold dlog_calls, eqo_calls, prod_calls, by_call, pt_call, int_call, sc_call in H; seek_in H;
  first [ apply pt_some in H | apply int_some in H | apply sc_some in H | discriminate H | apply by_some in H ].

Section Injective2.
Context {X : Oracles} {GO : Grp} {GL : GrpLaws GO}.

Lemma dlog_form_inj g h gx hx c1 c2 ad g' h' gx' hx' c1' c2' ad' : blen ad <= 255 ->
  ro_form (dlog_ro g h gx hx c1 c2 ad) = ro_form (dlog_ro g' h' gx' hx' c1' c2' ad') ->
  ad = ad' /\ g = g' /\ h = h' /\ gx = gx' /\ hx = hx' /\ c1 = c1' /\ c2 = c2'.
Proof.
  intros L E. pose proof (proj1 (form_eq (HDlog g h gx hx c1 c2 ad) (HDlog g' h' gx' hx' c1' c2' ad')) E) as C.
  destruct (by_len_cases ad') as [L'|L'].
  - at_name C "associated_data"%string. at_name C "instance_g"%string. at_name C "instance_h"%string.
    at_name C "instance_g_x"%string. at_name C "instance_h_x"%string. at_name C "commitment1"%string. at_name C "commitment2"%string.
    repeat split; assumption.
  - at_name C "associated_data"%string.
Qed.
Lemma eqo_form_inj g h a b c ad g' h' a' b' c' ad' : blen ad <= 255 ->
  ro_form (eqo_ro g h a b c ad) = ro_form (eqo_ro g' h' a' b' c' ad') ->
  ad = ad' /\ g = g' /\ h = h' /\ a = a' /\ b = b' /\ c = c'.
Proof.
  intros L E. pose proof (proj1 (form_eq (HEqo g h a b c ad) (HEqo g' h' a' b' c' ad')) E) as C.
  destruct (by_len_cases ad') as [L'|L'].
  - at_name C "associated_data"%string. at_name C "instance_g"%string. at_name C "instance_h"%string.
    at_name C "instance_a"%string. at_name C "instance_b"%string. at_name C "commitment"%string.
    repeat split; assumption.
  - at_name C "associated_data"%string.
Qed.
Lemma prod_form_inj g h l r pr c1 c2 ad g' h' l' r' pr' c1' c2' ad' : blen ad <= 255 ->
  ro_form (prod_ro g h l r pr c1 c2 ad) = ro_form (prod_ro g' h' l' r' pr' c1' c2' ad') ->
  ad = ad' /\ g = g' /\ h = h' /\ l = l' /\ r = r' /\ pr = pr' /\ c1 = c1' /\ c2 = c2'.
Proof.
  intros L E. pose proof (proj1 (form_eq (HProd g h l r pr c1 c2 ad) (HProd g' h' l' r' pr' c1' c2' ad')) E) as C.
  destruct (by_len_cases ad') as [L'|L'].
  - at_name C "associated_data"%string. at_name C "instance_g"%string. at_name C "instance_h"%string.
    at_name C "instance_lhs"%string. at_name C "instance_rhs"%string. at_name C "instance_product"%string.
    at_name C "commitment1"%string. at_name C "commitment2"%string.
    repeat split; assumption.
  - at_name C "associated_data"%string.
Qed.
Lemma mega_form_inj t d r ad pk e ss t' d' r' ad' pk' e' ss' : blen ad <= 255 ->
  ro_form (mega_ro t d r ad pk e ss) = ro_form (mega_ro t' d' r' ad' pk' e' ss') ->
  ad = ad' /\ u32 d = u32 d' /\ u32 r = u32 r' /\ pk = pk' /\ e = e' /\ ss = ss'.
Proof.
  intros L E. pose proof (proj1 (form_eq (HMega t d r ad pk e ss) (HMega t' d' r' ad' pk' e' ss')) E) as C.
  destruct (by_len_cases ad') as [L'|L'].
  - at_name C "associated_data"%string. at_name C "dealer_index"%string. at_name C "recipient_index"%string.
    at_name C "public_key"%string. at_name C "ephemeral_key"%string. at_name C "shared_secret"%string.
    repeat split; assumption.
  - at_name C "associated_data"%string.
Qed.
Lemma pop_form_inj t ad d e t' ad' d' e' : blen ad <= 255 ->
  ro_form (pop_ro t ad d e) = ro_form (pop_ro t' ad' d' e') -> ad = ad' /\ u32 d = u32 d' /\ e = e'.
Proof.
  intros L E. pose proof (proj1 (form_eq (HPop t ad d e) (HPop t' ad' d' e')) E) as C.
  destruct (by_len_cases ad') as [L'|L'].
  - at_name C "associated_data"%string. at_name C "dealer_index"%string. at_name C "ephemeral_key"%string.
    repeat split; assumption.
  - at_name C "associated_data"%string.
Qed.
Lemma assoc_form_inj ad r d pk ad' r' d' pk' : blen ad <= 255 ->
  ro_form (assoc_ro ad r d pk) = ro_form (assoc_ro ad' r' d' pk') ->
  ad = ad' /\ u32 r = u32 r' /\ u32 d = u32 d' /\ pk = pk'.
Proof.
  intros L E. pose proof (proj1 (form_eq (HAssoc ad r d pk) (HAssoc ad' r' d' pk')) E) as C.
  destruct (by_len_cases ad') as [L'|L'].
  - at_name C "associated_data"%string. at_name C "receiver_index"%string. at_name C "dealer_index"%string.
    at_name C "receiver_public_key"%string. repeat split; assumption.
  - at_name C "associated_data"%string.
Qed.
Lemma rho_form_inj hm rn ps tw hm' rn' ps' tw' : blen hm <= 255 -> blen rn <= 255 ->
  ro_form (rho_ro hm rn ps tw) = ro_form (rho_ro hm' rn' ps' tw') -> hm = hm' /\ rn = rn' /\ ps = ps' /\ tw = tw'.
Proof.
  intros L1 L2 E. pose proof (proj1 (form_eq (HRho hm rn ps tw) (HRho hm' rn' ps' tw')) E) as C.
  destruct (by_len_cases hm') as [L'|L']; [|at_name C "hashed_message"%string].
  destruct (by_len_cases rn') as [L''|L'']; [|at_name C "randomness"%string].
  at_name C "hashed_message"%string. at_name C "randomness"%string. at_name C "pre_sig"%string. at_name C "key_tweak"%string.
  repeat split; assumption.
Qed.
(** oversize associated data everywhere *)
Lemma pop_form_ad t ad ad' d e : 255 < blen ad -> 255 < blen ad' -> pop_base t ad d e = pop_base t ad' d e.
Proof.
  intros H H'. unfold pop_base.
  change (pop_ro t ad d e) with (oracle (HPop t ad d e)). change (pop_ro t ad' d e) with (oracle (HPop t ad' d e)).
  rewrite (oracle_run (HPop t ad d e)), (oracle_run (HPop t ad' d e)).
  assert (D : ro_dst (oracle (HPop t ad d e)) = ro_dst (oracle (HPop t ad' d e))).
  { cbn [oracle]. unfold pop_ro, add_point, add_bytes, add_uint32, ro_add_ign. rewrite !ro_add_input_cases.
    repeat match goal with |- context [if ?b then _ else _] => destruct b end;
    repeat match goal with |- context [match ?b with Some _ => _ | None => _ end] => destruct b end; reflexivity. }
  rewrite D. cbn [calls]. rewrite (run_bad _ (by_call _ ad)), (run_bad _ (by_call _ ad')) by (apply by_call_bad; assumption). reflexivity.
Qed.
Lemma dlog_verify_ad pf g h gx hx ad ad' : 255 < blen ad -> 255 < blen ad' ->
  dlog_verify pf g h gx hx ad = dlog_verify pf g h gx hx ad'.
Proof.
  intros H H'. unfold dlog_verify. destruct (dlog_recover g h gx hx pf).
  rewrite (dlog_challenge_ad _ _ _ _ _ _ ad ad') by assumption. reflexivity.
Qed.
Lemma eqo_verify_ad pf a b ad ad' : 255 < blen ad -> 255 < blen ad' -> eqo_verify pf a b ad = eqo_verify pf a b ad'.
Proof. intros H H'. unfold eqo_verify. rewrite (eqo_challenge_ad _ _ _ _ _ ad ad') by assumption. reflexivity. Qed.
Lemma prod_verify_ad pf l r pr ad ad' : 255 < blen ad -> 255 < blen ad' -> prod_verify pf l r pr ad = prod_verify pf l r pr ad'.
Proof.
  intros H H'. unfold prod_verify. destruct (prod_recover genH l r pr pf).
  rewrite (prod_challenge_ad _ _ _ _ _ _ _ ad ad') by assumption. reflexivity.
Qed.
Lemma verify_pop_ad t ad ad' d e p pf : 255 < blen ad -> 255 < blen ad' -> verify_pop t ad d e p pf = verify_pop t ad' d e p pf.
Proof.
  intros H H'. unfold verify_pop. rewrite (pop_form_ad t ad ad') by assumption.
  destruct (pop_base t ad' d e); cbn [bind]; [apply dlog_verify_ad; assumption|reflexivity..].
Qed.
End Injective2.
