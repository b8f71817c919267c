(** Property C86: loops without a bound.  The model bounds the rejection
    sampling loop, the retries of key derivation and the drawing of different
    indices in the test drivers by [rand_fuel]; no result other than
    [Diverge] depends on that bound. *)
From Coq Require Import ZArith Lia Bool String List.
From Verif Require Import Base BaseFacts Zmod Fields ModelScalar ModelXmd ModelRo ModelPoly ModelGroup GroupFacts ModelCommit ModelZk ModelMega
  ModelDealing ModelComplaint ModelKey SpecKey ProofKey ModelSign ModelProtocol ProofTranscript ProofRand PropRand Toy.
Import ListNotations.
Open Scope Z_scope.

(** the same functions with another bound *)
Definition with_fuel (n : nat) (X : Oracles) : Oracles := {|
  sha256 := @sha256 X; hmac512 := @hmac512 X; keystream := @keystream X; rand_fuel := n |}.
(** [r'] is what [r] is, if [r] is anything *)
Definition settles {A} (r r' : res A) : Prop := r = Diverge \/ r' = r.

Lemma settles_refl {A} (r : res A) : settles r r. Proof. right. reflexivity. Qed.
Lemma settles_bind {A B} (r r' : res A) (k k' : A -> res B) :
  settles r r' -> (forall a, settles (k a) (k' a)) -> settles (bind r k) (bind r' k').
Proof. intros [->|E] H; [left; reflexivity|rewrite E]. destruct r; cbn [bind]; [apply H|apply settles_refl..]. Qed.
Lemma settles_or_panic {A} (r r' : res A) : settles r r' -> settles (or_panic r) (or_panic r').
Proof. intros [->|E]; [left; reflexivity|rewrite E; apply settles_refl]. Qed.
Lemma settles_mapM {A B} (f g : A -> res B) : (forall a, settles (f a) (g a)) -> forall l, settles (mapM f l) (mapM g l).
Proof.
  intros H. induction l as [|a l IH]; cbn [mapM]; [apply settles_refl|].
  apply settles_bind; [apply H|]. intros b. apply settles_bind; [exact IH|]. intros c. apply settles_refl.
Qed.

Section Fuel.
Context {X : Oracles} {GO : Grp} (n n' : nat) (Hn : (n <= n')%nat).
Notation A := (with_fuel n X).
Notation B := (with_fuel n' X).

Ltac settle := repeat first
  [ solve [auto with fuel nocore]
  | apply settles_bind; [|intros ?]
  | apply settles_or_panic
  | apply settles_mapM; intros ?
  | match goal with
    | |- settles (let '(_, _) := ?p in _) _ => destruct p
    | |- settles (match ?p with _ => _ end) _ => destruct p
    end
  | solve [right; reflexivity] ].

Lemma ro_scalars_settles r k : settles (@ro_output_scalars A r k) (@ro_output_scalars B r k).
Proof. right. reflexivity. Qed.
Lemma ro_scalar_settles r : settles (@ro_output_scalar A r) (@ro_output_scalar B r).
Proof. right. reflexivity. Qed.
Lemma ro_bytes_settles r k : settles (@ro_output_bytes A r k) (@ro_output_bytes B r k).
Proof. right. reflexivity. Qed.
Hint Resolve ro_scalars_settles ro_scalar_settles ro_bytes_settles : fuel.
Lemma random_loop_settles m m' r buf : (m <= m')%nat -> settles (@random_loop A m r buf) (@random_loop B m' r buf).
Proof.
  revert m' r buf. induction m as [|m IH]; intros m' r buf L; [left; reflexivity|]. destruct m' as [|m']; [lia|].
  cbn [random_loop]. change (@fill_uint8 B r buf) with (@fill_uint8 A r buf). destruct (@fill_uint8 A r buf) as [b r1].
  destruct (scalar_deserialize 1 b) as [[s|]| | |]; try apply settles_refl; apply IH; lia.
Qed.
Lemma random_scalar_settles r : settles (@random_scalar A r) (@random_scalar B r).
Proof. apply random_loop_settles, Hn. Qed.
Hint Resolve random_scalar_settles : fuel.
Lemma scalar_from_seed_settles s : settles (@scalar_from_seed A s) (@scalar_from_seed B s).
Proof. unfold scalar_from_seed. settle. Qed.
Hint Resolve scalar_from_seed_settles : fuel.
Lemma random_scalars_settles m r : settles (@random_scalars A m r) (@random_scalars B m r).
Proof. revert r. induction m as [|m IH]; intros r; cbn [random_scalars]; settle. Qed.
Hint Resolve random_scalars_settles : fuel.
Lemma poly_random_settles m r : settles (@poly_random A m r) (@poly_random B m r).
Proof. unfold poly_random. settle. Qed.
Lemma poly_random_with_constant_settles c m r : settles (@poly_random_with_constant A c m r) (@poly_random_with_constant B c m r).
Proof. unfold poly_random_with_constant. settle. Qed.
Hint Resolve poly_random_settles poly_random_with_constant_settles : fuel.
Lemma dlog_create_settles seed x g h ad : settles (@dlog_create A _ seed x g h ad) (@dlog_create B _ seed x g h ad).
Proof. unfold dlog_create. settle. Qed.
Lemma eqo_create_settles seed s m ad : settles (@eqo_create A _ seed s m ad) (@eqo_create B _ seed s m ad).
Proof. unfold eqo_create. settle. Qed.
Lemma prod_create_settles seed l r rm p pm ad : settles (@prod_create A _ seed l r rm p pm ad) (@prod_create B _ seed l r rm p pm ad).
Proof. unfold prod_create. settle. Qed.
Hint Resolve dlog_create_settles eqo_create_settles prod_create_settles : fuel.

Lemma eph_and_pop_settles t seed ad dealer : settles (@eph_and_pop A _ t seed ad dealer) (@eph_and_pop B _ t seed ad dealer).
Proof. unfold eph_and_pop. settle. Qed.
Hint Resolve eph_and_pop_settles : fuel.
Lemma gen_keypair_settles seed : settles (@gen_keypair A _ seed) (@gen_keypair B _ seed).
Proof. unfold gen_keypair. settle. Qed.
Lemma encrypt_single_settles seed pl rc dealer ad : settles (@encrypt_single A _ seed pl rc dealer ad) (@encrypt_single B _ seed pl rc dealer ad).
Proof. unfold encrypt_single. settle. Qed.
Lemma encrypt_pair_settles seed pl rc dealer ad : settles (@encrypt_pair A _ seed pl rc dealer ad) (@encrypt_pair B _ seed pl rc dealer ad).
Proof. unfold encrypt_pair. settle. Qed.
Hint Resolve encrypt_single_settles encrypt_pair_settles : fuel.
Lemma ec_single_settles po m rc dealer ad seed : settles (@encrypt_and_commit_single A _ po m rc dealer ad seed) (@encrypt_and_commit_single B _ po m rc dealer ad seed).
Proof. unfold encrypt_and_commit_single. settle. Qed.
Lemma ec_pair_settles va ma m rc dealer ad seed : settles (@encrypt_and_commit_pair A _ va ma m rc dealer ad seed) (@encrypt_and_commit_pair B _ va ma m rc dealer ad seed).
Proof. unfold encrypt_and_commit_pair. settle. Qed.
Hint Resolve ec_single_settles ec_pair_settles : fuel.
Lemma new_dealing_settles sh seed th rc dealer ad : settles (@new_dealing A _ sh seed th rc dealer ad) (@new_dealing B _ sh seed th rc dealer ad).
Proof. unfold new_dealing. settle. Qed.
Lemma new_complaint_settles seed d dealer receiver sk pk ad : settles (@new_complaint A _ seed d dealer receiver sk pk ad) (@new_complaint B _ seed d dealer receiver sk pk ad).
Proof. unfold new_complaint. settle. Qed.
Hint Resolve new_dealing_settles new_complaint_settles : fuel.
(** verification *)
Lemma mega_hash_settles t dealer recipient ad pk eph ss : settles (@mega_hash A _ t dealer recipient ad pk eph ss) (@mega_hash B _ t dealer recipient ad pk eph ss).
Proof. unfold mega_hash. auto with fuel nocore. Qed.
Lemma dlog_verify_settles pf g h gx hx ad : settles (@dlog_verify A _ pf g h gx hx ad) (@dlog_verify B _ pf g h gx hx ad).
Proof. unfold dlog_verify. settle. Qed.
Lemma eqo_verify_settles pf p s ad : settles (@eqo_verify A _ pf p s ad) (@eqo_verify B _ pf p s ad).
Proof. unfold eqo_verify. settle. Qed.
Lemma prod_verify_settles pf l r p ad : settles (@prod_verify A _ pf l r p ad) (@prod_verify B _ pf l r p ad).
Proof. unfold prod_verify. settle. Qed.
Hint Resolve mega_hash_settles dlog_verify_settles eqo_verify_settles prod_verify_settles : fuel.
Lemma verify_pop_settles t ad dealer e p pf : settles (@verify_pop A _ t ad dealer e p pf) (@verify_pop B _ t ad dealer e p pf).
Proof. unfold verify_pop. settle. Qed.
Hint Resolve verify_pop_settles : fuel.
Lemma m_verify_pop_settles m ad dealer : settles (@m_verify_pop A _ m ad dealer) (@m_verify_pop B _ m ad dealer).
Proof. unfold m_verify_pop. settle. Qed.
Hint Resolve m_verify_pop_settles : fuel.
Lemma decrypt_single_settles e ct ad dealer recipient pk ss : settles (@decrypt_single_ss A _ e ct ad dealer recipient pk ss) (@decrypt_single_ss B _ e ct ad dealer recipient pk ss).
Proof. unfold decrypt_single_ss. settle. Qed.
Lemma decrypt_pair_settles e ct ad dealer recipient pk ss : settles (@decrypt_pair_ss A _ e ct ad dealer recipient pk ss) (@decrypt_pair_ss B _ e ct ad dealer recipient pk ss).
Proof. unfold decrypt_pair_ss. settle. Qed.
Hint Resolve decrypt_single_settles decrypt_pair_settles : fuel.
Lemma m_decrypt_settles m ad dealer recipient sk pk : settles (@m_decrypt A _ m ad dealer recipient sk pk) (@m_decrypt B _ m ad dealer recipient sk pk).
Proof. unfold m_decrypt. settle. Qed.
Hint Resolve m_decrypt_settles : fuel.
Lemma decrypt_and_check_settles m c ad dealer recipient sk pk : settles (@m_decrypt_and_check A _ m c ad dealer recipient sk pk) (@m_decrypt_and_check B _ m c ad dealer recipient sk pk).
Proof. unfold m_decrypt_and_check. settle. Qed.
Hint Resolve decrypt_and_check_settles : fuel.
Lemma private_verify_settles d sk pk ad dealer recipient : settles (@private_verify A _ d sk pk ad dealer recipient) (@private_verify B _ d sk pk ad dealer recipient).
Proof. unfold private_verify. settle. Qed.
Lemma open_dealing_settles d ad dealer opener sk pk : settles (@open_dealing A _ d ad dealer opener sk pk) (@open_dealing B _ d ad dealer opener sk pk).
Proof. unfold open_dealing. settle. Qed.
Lemma m_check_validity_settles m e ad dealer : settles (@m_check_validity A _ m e ad dealer) (@m_check_validity B _ m e ad dealer).
Proof. unfold m_check_validity. settle. Qed.
Hint Resolve private_verify_settles open_dealing_settles m_check_validity_settles : fuel.
Lemma publicly_verify_settles d op th dealer rc ad : settles (@publicly_verify A _ d op th dealer rc ad) (@publicly_verify B _ d op th dealer rc ad).
Proof. unfold publicly_verify. settle. Qed.
Lemma complaint_verify_settles c d dealer complainer pk ad : settles (@complaint_verify A _ c d dealer complainer pk ad) (@complaint_verify B _ c d dealer complainer pk ad).
Proof. unfold complaint_verify. settle. Qed.
Lemma from_dealings_settles ds tc ad receiver sk pk : settles (@from_dealings A _ ds tc ad receiver sk pk) (@from_dealings B _ ds tc ad receiver sk pk).
Proof. unfold from_dealings. settle. Qed.
Lemma from_dealings_and_openings_settles ds pr tc ad receiver sk pk :
  settles (@from_dealings_and_openings A _ ds pr tc ad receiver sk pk) (@from_dealings_and_openings B _ ds pr tc ad receiver sk pk).
Proof. unfold from_dealings_and_openings. settle. Qed.
Hint Resolve publicly_verify_settles complaint_verify_settles from_dealings_settles from_dealings_and_openings_settles : fuel.
Lemma complaints_loop_settles ds ad receiver sk pk seed :
  settles (@complaints_loop A _ ds ad receiver sk pk seed) (@complaints_loop B _ ds ad receiver sk pk seed).
Proof.
  induction ds as [|[i d] ds IH]; cbn [complaints_loop]; [apply settles_refl|].
  destruct (decrypt_and_check_settles (d_ct d) (d_cm d) ad i receiver sk pk) as [E|E]; [left; rewrite E; reflexivity|rewrite E].
  destruct (@m_decrypt_and_check A GO (d_ct d) (d_cm d) ad i receiver sk pk); [exact IH| |apply settles_refl..].
  apply settles_bind; [right; reflexivity|]. intros s. apply settles_bind; [auto with fuel nocore|]. intros c.
  apply settles_bind; [exact IH|]. intros r. apply settles_refl.
Qed.
Hint Resolve complaints_loop_settles : fuel.
Lemma generate_complaints_settles ds ad receiver sk pk seed :
  settles (@generate_complaints A _ ds ad receiver sk pk seed) (@generate_complaints B _ ds ad receiver sk pk seed).
Proof. unfold generate_complaints. settle. Qed.
Hint Resolve generate_complaints_settles : fuel.

(** key derivation and signing *)
Lemma ckdpub_settles m m' k c i : (m <= m')%nat -> settles (@ckdpub A _ m k c i) (@ckdpub B _ m' k c i).
Proof.
  revert m' i. induction m as [|m IH]; intros m' i L; [left; reflexivity|]. destruct m' as [|m']; [lia|]. cbn [ckdpub].
  apply settles_bind; [right; reflexivity|]. intros off. change (@hmac512 B) with (@hmac512 A).
  destruct (_ || _)%bool; [|apply settles_refl]. destruct (IH m' (index_next i) ltac:(lia)) as [E|E].
  - left. rewrite E. reflexivity.
  - rewrite E. apply settles_refl.
Qed.
Lemma tweak_loop_settles pa k c off : settles (@tweak_loop A _ pa k c off) (@tweak_loop B _ pa k c off).
Proof.
  revert k c off. induction pa as [|i pa IH]; intros k c off; cbn [tweak_loop]; [apply settles_refl|].
  apply settles_bind; [apply ckdpub_settles, Hn|]. intros [[k' c'] o]. apply IH.
Qed.
Lemma derive_tweak_settles pa k : settles (@derive_tweak A _ pa k) (@derive_tweak B _ pa k).
Proof. apply tweak_loop_settles. Qed.
Hint Resolve derive_tweak_settles : fuel.
Lemma derive_public_key_settles m pa : settles (@derive_public_key A _ m pa) (@derive_public_key B _ m pa).
Proof. unfold derive_public_key. settle. Qed.
Lemma derive_rho_settles h r pa k p : settles (@derive_rho A _ h r pa k p) (@derive_rho B _ h r pa k p).
Proof. unfold derive_rho. settle. Qed.
Hint Resolve derive_public_key_settles derive_rho_settles : fuel.
Lemma new_share_settles pa h r k p l kl xl : settles (@new_share A _ pa h r k p l kl xl) (@new_share B _ pa h r k p l kl xl).
Proof. unfold new_share. settle. Qed.
Lemma share_verify_settles s pa h r i k p l kl xl : settles (@share_verify A _ s pa h r i k p l kl xl) (@share_verify B _ s pa h r i k p l kl xl).
Proof. unfold share_verify. settle. Qed.
Lemma combine_sig_settles pa h r k p th sh : settles (@combine_sig A _ pa h r k p th sh) (@combine_sig B _ pa h r k p th sh).
Proof. unfold combine_sig. settle. Qed.
Lemma sig_verify_settles t pa h r k p : settles (@sig_verify A _ t pa h r k p) (@sig_verify B _ t pa h r k p).
Proof. unfold sig_verify. settle. Qed.
Hint Resolve new_share_settles share_verify_settles combine_sig_settles sig_verify_settles : fuel.

(** the protocol drivers *)
Lemma new_setup_settles rc th seed : settles (@new_setup A _ rc th seed) (@new_setup B _ rc th seed).
Proof.
  unfold new_setup. apply settles_bind; [apply settles_refl|]. intros rn.
  change (@fill_uint8 B) with (@fill_uint8 A). destruct (@fill_uint8 A rn (repeat 0 32)) as [ad r]. settle.
Qed.
Lemma must_settles r r' : settles r r' -> settles (must_pass r) (must_pass r') /\ settles (must_fail r) (must_fail r').
Proof. intros [->|E]; [split; left; reflexivity|rewrite E; split; apply settles_refl]. Qed.
Lemma test_public_settles su d op dealer : settles (@test_public A _ su d op dealer) (@test_public B _ su d op dealer).
Proof.
  unfold test_public. cbv zeta.
  apply settles_bind; [apply must_settles, publicly_verify_settles|intros _].
  apply settles_bind; [apply must_settles, publicly_verify_settles|intros _].
  apply settles_bind; [apply must_settles, publicly_verify_settles|intros _]. apply must_settles, publicly_verify_settles.
Qed.
Hint Resolve new_setup_settles test_public_settles : fuel.
Lemma deal_loop_settles su op i sh rn : settles (@deal_loop A _ su op i sh rn) (@deal_loop B _ su op i sh rn).
Proof.
  revert i rn. induction sh as [|s sh IH]; intros i rn; cbn [deal_loop]; [apply settles_refl|].
  apply settles_bind; [right; reflexivity|]. intros [sd r]. apply settles_bind; [auto with fuel nocore|]. intros d.
  apply settles_bind; [auto with fuel nocore|]. intros _. apply settles_bind; [apply settles_refl|]. intros ri.
  apply settles_bind; [apply settles_mapM; intros [[sk pk] j]; auto with fuel nocore|]. intros _.
  apply settles_bind; [apply IH|]. intros [r1 r2]. apply settles_refl.
Qed.
Lemma delete_loop_same {T} m : forall (ds : list T) num rn, @delete_loop A T m ds num rn = @delete_loop B T m ds num rn.
Proof. reflexivity. Qed.
Lemma damage_loop_settles m m' ds acc num rn : (m <= m')%nat -> settles (@damage_loop A _ m ds acc num rn) (@damage_loop B _ m' ds acc num rn).
Proof.
  revert m' acc rn. induction m as [|m IH]; intros m' acc rn L.
  - destruct m'; cbn [damage_loop]; destruct (num <=? _); try apply settles_refl; left; reflexivity.
  - destruct m' as [|m']; [lia|]. cbn [damage_loop]. destruct (num <=? _); [apply settles_refl|]. destruct ds as [|e ds]; [apply settles_refl|].
    change (@rng_uint32 B) with (@rng_uint32 A). destruct (@rng_uint32 A rn) as [u r]. apply settles_bind; [apply settles_refl|]. intros a. apply IH. lia.
Qed.
Lemma target_loop_settles m m' acc num rc rn : (m <= m')%nat -> settles (@target_loop A m acc num rc rn) (@target_loop B m' acc num rc rn).
Proof.
  revert m' acc rn. induction m as [|m IH]; intros m' acc rn L.
  - destruct m'; cbn [target_loop]; destruct (num <=? _); try apply settles_refl; destruct (rc =? 0); try apply settles_refl; left; reflexivity.
  - destruct m' as [|m']; [lia|]. cbn [target_loop]. destruct (num <=? _); [apply settles_refl|]. destruct (rc =? 0); [apply settles_refl|].
    change (@rng_uint32 B) with (@rng_uint32 A). destruct (@rng_uint32 A rn) as [u r]. apply IH. lia.
Qed.
Lemma corrupt_dealing_settles d ts seed : settles (@corrupt_dealing A _ d ts seed) (@corrupt_dealing B _ d ts seed).
Proof. unfold corrupt_dealing. settle. Qed.
Lemma check_corrupted_settles su d dealer ts : settles (@check_corrupted A _ su d dealer ts) (@check_corrupted B _ su d dealer ts).
Proof.
  unfold check_corrupted. apply settles_bind; [apply settles_refl|]. intros ri. apply settles_bind; [|intros _; apply settles_refl].
  apply settles_mapM. intros [[sk pk] j]. destruct (private_verify_settles d sk pk (su_ad su) dealer j) as [E|E]; rewrite E; [left|apply settles_refl].
  reflexivity.
Qed.
Hint Resolve corrupt_dealing_settles check_corrupted_settles : fuel.
Lemma corrupt_loop_settles su todo ds rn : settles (@corrupt_loop A _ su todo ds rn) (@corrupt_loop B _ su todo ds rn).
Proof.
  revert ds rn. induction todo as [|[k d] todo IH]; intros ds rn; cbn [corrupt_loop]; [apply settles_refl|].
  change (@rng_uint32 B) with (@rng_uint32 A). destruct (@rng_uint32 A rn) as [u r]. destruct (su_threshold su =? 0); [apply settles_refl|].
  apply settles_bind; [apply target_loop_settles, Hn|]. intros [ts r1]. apply settles_bind; [right; reflexivity|]. intros [sd r2].
  apply settles_bind; [auto with fuel nocore|]. intros bad. apply settles_bind; [auto with fuel nocore|]. intros _. apply IH.
Qed.
Lemma create_dealings_settles su sh dealers corrupted op seed :
  settles (@create_dealings A _ su sh dealers corrupted op seed) (@create_dealings B _ su sh dealers corrupted op seed).
Proof.
  unfold create_dealings. apply settles_bind; [apply settles_refl|]. intros rn. apply settles_bind; [apply deal_loop_settles|]. intros [ds r].
  apply settles_bind; [right; reflexivity|]. intros [ds' r']. apply settles_bind; [apply damage_loop_settles, Hn|]. intros [bad r2]. apply corrupt_loop_settles.
Qed.
Hint Resolve create_dealings_settles : fuel.
Lemma open_for_settles su d dealer receiver ri : settles (@open_for A _ su d dealer receiver ri) (@open_for B _ su d dealer receiver ri).
Proof.
  induction ri as [|[[sk pk] o] ri IH]; cbn [open_for]; [apply settles_refl|]. destruct (o =? receiver); [exact IH|].
  destruct (private_verify_settles d sk pk (su_ad su) dealer o) as [E|E]; rewrite E; [left; reflexivity|].
  destruct (@private_verify A GO d sk pk (su_ad su) dealer o); [|exact IH|apply settles_refl..].
  apply settles_bind; [apply settles_refl|]. intros sk'. apply settles_bind; [apply settles_refl|]. intros pk'.
  apply settles_bind; [apply settles_or_panic, open_dealing_settles|]. intros op. apply settles_bind; [apply settles_refl|]. intros [|]; [|apply settles_refl].
  apply settles_bind; [exact IH|]. intros r. apply settles_refl.
Qed.
Lemma answer_loop_settles su ds receiver pk cs rn : settles (@answer_loop A _ su ds receiver pk cs rn) (@answer_loop B _ su ds receiver pk cs rn).
Proof.
  revert rn. induction cs as [|[k c] cs IH]; intros rn; cbn [answer_loop]; [apply settles_refl|].
  destruct (zlookup k ds) as [d|]; [|apply settles_refl]. apply settles_bind; [auto with fuel nocore|]. intros _.
  apply settles_bind; [apply settles_refl|]. intros ri. apply settles_bind; [apply open_for_settles|]. intros os.
  apply settles_bind; [right; reflexivity|]. intros [os' r]. apply settles_bind; [apply IH|]. intros [r1 r2]. apply settles_refl.
Qed.
Lemma open_loop_settles su ds tc seed is rn : settles (@open_loop A _ su ds tc seed is rn) (@open_loop B _ su ds tc seed is rn).
Proof.
  revert rn. induction is as [|i is IH]; intros rn; cbn [open_loop]; [apply settles_refl|]. cbv zeta.
  apply settles_bind; [apply settles_refl|]. intros sk. apply settles_bind; [apply settles_refl|]. intros pk.
  destruct (from_dealings_settles ds tc (su_ad su) (Z.of_nat i) sk pk) as [E|E]; rewrite E; [left; reflexivity|].
  destruct (@from_dealings A GO ds tc (su_ad su) (Z.of_nat i) sk pk); [| |apply settles_refl..].
  - apply settles_bind; [apply IH|]. intros r. apply settles_refl.
  - apply settles_bind; [right; reflexivity|]. intros s. apply settles_bind; [auto with fuel nocore|]. intros cs.
    apply settles_bind; [apply answer_loop_settles|]. intros [pr r]. apply settles_bind; [apply settles_or_panic; auto with fuel nocore|]. intros o.
    apply settles_bind; [apply IH|]. intros r'. apply settles_refl.
Qed.
Lemma open_dealings_settles cb su ds t : settles (@open_dealings A _ cb su ds t) (@open_dealings B _ cb su ds t).
Proof.
  unfold open_dealings. apply settles_bind; [apply settles_refl|]. intros k. apply settles_bind; [apply settles_refl|]. intros _.
  apply settles_bind; [right; reflexivity|]. intros seed. apply settles_bind; [right; reflexivity|]. intros s.
  apply settles_bind; [apply settles_refl|]. intros rn. apply open_loop_settles.
Qed.
Hint Resolve open_dealings_settles : fuel.
Lemma round_run_settles cb su sh dealers corrupted op : settles (@round_run A _ cb su sh dealers corrupted op) (@round_run B _ cb su sh dealers corrupted op).
Proof.
  unfold round_run. apply settles_bind; [right; reflexivity|]. intros [s su']. apply settles_bind; [auto with fuel nocore|]. intros ds.
  apply settles_bind; [apply settles_refl|]. intros t. unfold round_new. apply settles_bind; [|intros r; apply settles_refl].
  apply settles_bind; [auto with fuel nocore|]. intros os. apply settles_refl.
Qed.
Hint Resolve round_run_settles : fuel.
Lemma round_random_settles cb su dealers corrupted : settles (@round_random A _ cb su dealers corrupted) (@round_random B _ cb su dealers corrupted).
Proof. unfold round_random. settle. Qed.
Lemma round_reshare_masked_settles cb su m dealers corrupted : settles (@round_reshare_masked A _ cb su m dealers corrupted) (@round_reshare_masked B _ cb su m dealers corrupted).
Proof. unfold round_reshare_masked. apply settles_bind; [apply settles_refl|]. intros sh. settle. Qed.
Lemma round_reshare_unmasked_settles cb su m dealers corrupted : settles (@round_reshare_unmasked A _ cb su m dealers corrupted) (@round_reshare_unmasked B _ cb su m dealers corrupted).
Proof. unfold round_reshare_unmasked. apply settles_bind; [apply settles_refl|]. intros sh. settle. Qed.
Lemma round_multiply_settles cb su m u dealers corrupted : settles (@round_multiply A _ cb su m u dealers corrupted) (@round_multiply B _ cb su m u dealers corrupted).
Proof. unfold round_multiply. apply settles_bind; [apply settles_refl|]. intros sh. settle. Qed.
Hint Resolve round_random_settles round_reshare_masked_settles round_reshare_unmasked_settles round_multiply_settles : fuel.
Lemma new_sig_setup_settles cb dealers th corrupted seed : settles (@new_sig_setup A _ cb dealers th corrupted seed) (@new_sig_setup B _ cb dealers th corrupted seed).
Proof. unfold new_sig_setup. settle. Qed.
Lemma generate_shares_settles s pa m b : settles (@generate_shares A _ s pa m b) (@generate_shares B _ s pa m b).
Proof.
  unfold generate_shares. apply settles_bind; [apply settles_refl|]. intros k. change (@sha256 B) with (@sha256 A).
  generalize (seq 0 k) as is. induction is as [|i is IH]; cbn [share_loop]; [apply settles_refl|]. settle.
Qed.
Lemma generate_signature_settles s pa m b sh : settles (@generate_signature A _ s pa m b sh) (@generate_signature B _ s pa m b sh).
Proof. apply combine_sig_settles. Qed.
Lemma public_key_settles s pa : settles (@public_key A _ s pa) (@public_key B _ s pa).
Proof. unfold public_key. settle. Qed.
Hint Resolve public_key_settles : fuel.
Lemma verify_signature_settles s pa m b t : settles (@verify_signature A _ s pa m b t) (@verify_signature B _ s pa m b t).
Proof. unfold verify_signature. apply settles_bind; [apply sig_verify_settles|]. intros ?. settle. Qed.
End Fuel.

(** what always ends *)
Definition halts {A} (r : res A) : Prop := r <> Diverge.
Lemma halts_bind {A B} (r : res A) (k : A -> res B) : halts r -> (forall a, halts (k a)) -> halts (bind r k).
Proof. intros H K. destruct r; cbn [bind]; [apply K|discriminate|discriminate|exfalso; apply H; reflexivity]. Qed.
Lemma halts_mapM {A B} (f : A -> res B) : (forall a, halts (f a)) -> forall l, halts (mapM f l).
Proof.
  intros H. induction l as [|a l IH]; cbn [mapM]; [discriminate|]. apply halts_bind; [apply H|]. intros b. apply halts_bind; [exact IH|]. discriminate.
Qed.
Ltac halt := repeat first
  [ solve [auto with halt nocore]
  | apply halts_bind; [|intros ?]
  | apply halts_mapM; intros ?
  | match goal with
    | |- halts (Ok _) => discriminate
    | |- halts Err => discriminate
    | |- halts Panic => discriminate
    | |- halts (guard ?b) => destruct b; discriminate
    | |- halts (let '(_, _) := ?p in _) => destruct p
    | |- halts (match ?p with _ => _ end) => destruct p
    end ].
Section Halts.
Context {X : Oracles} {GO : Grp} {GL : GrpLaws GO}.
Lemma xmd_halts m d l : halts (expand_message_xmd m d l). Proof. unfold expand_message_xmd. cbv zeta. halt. Qed.
Lemma wide_halts b : halts (scalar_from_bytes_wide b). Proof. unfold scalar_from_bytes_wide, k256_from_wide_bytes. halt. Qed.
Hint Resolve xmd_halts wide_halts : halt.
Lemma ro_form_halts r : halts (ro_form r). Proof. unfold ro_form. halt. Qed.
Hint Resolve ro_form_halts : halt.
Lemma hash_to_scalar_halts c i d : halts (hash_to_scalar c i d). Proof. unfold hash_to_scalar. halt. Qed.
Hint Resolve hash_to_scalar_halts : halt.
Lemma ro_scalars_halts r k : halts (ro_output_scalars r k). Proof. unfold ro_output_scalars. halt. Qed.
Hint Resolve ro_scalars_halts : halt.
Lemma ro_scalar_halts r : halts (ro_output_scalar r). Proof. unfold ro_output_scalar. halt. Qed.
Lemma ro_bytes_halts r k : halts (ro_output_bytes r k). Proof. unfold ro_output_bytes. halt. Qed.
Lemma h2p_halts i d : halts (h2p i d). Proof. destruct (h2p_total i d) as [a ->]. discriminate. Qed.
Hint Resolve ro_scalar_halts ro_bytes_halts h2p_halts : halt.
Lemma ro_point_halts r : halts (ro_output_point r). Proof. unfold ro_output_point. halt. Qed.
Hint Resolve ro_point_halts : halt.
Lemma dlog_verify_halts pf g h gx hx ad : halts (dlog_verify pf g h gx hx ad). Proof. unfold dlog_verify, dlog_challenge. halt. Qed.
Lemma eqo_verify_halts pf p s ad : halts (eqo_verify pf p s ad). Proof. unfold eqo_verify, eqo_challenge. halt. Qed.
Lemma prod_verify_halts pf l r p ad : halts (prod_verify pf l r p ad). Proof. unfold prod_verify, prod_challenge. halt. Qed.
Hint Resolve dlog_verify_halts eqo_verify_halts prod_verify_halts : halt.
Lemma c_points_halts c : halts (c_points c). Proof. unfold c_points. halt. Qed.
Lemma c_type_halts c : halts (c_type c). Proof. unfold c_type. halt. Qed.
Lemma eval_points_halts l i : halts (eval_points l i). Proof. unfold eval_points. halt. Qed.
Hint Resolve c_points_halts c_type_halts eval_points_halts : halt.
Lemma c_len_halts c : halts (c_len c). Proof. unfold c_len. halt. Qed.
Lemma c_curve_halts c : halts (c_curve c). Proof. unfold c_curve. halt. Qed.
Lemma c_const_halts c : halts (c_constant_term c). Proof. unfold c_constant_term. halt. Qed.
Lemma c_eval_halts c i : halts (c_eval c i). Proof. unfold c_eval. halt. Qed.
Hint Resolve c_len_halts c_curve_halts c_const_halts c_eval_halts : halt.
Lemma c_verify_is_halts c t : halts (c_verify_is c t). Proof. unfold c_verify_is. halt. Qed.
Lemma c_check_halts c i o : halts (c_check_opening c i o). Proof. unfold c_check_opening. halt. Qed.
Hint Resolve c_verify_is_halts c_check_halts : halt.
Lemma c_return_halts c i o : halts (c_return_if_consistent c i o). Proof. unfold c_return_if_consistent. halt. Qed.
Hint Resolve c_return_halts : halt.
Lemma nth_halts {A} (l : list A) i : halts (nth_or_panic l i). Proof. unfold nth_or_panic. halt. Qed.
Hint Resolve nth_halts : halt.
Lemma index_halts {A} (l : list A) i : halts (index l i). Proof. unfold index. halt. Qed.
Hint Resolve index_halts : halt.
Lemma verify_pop_halts t ad dealer e p pf : halts (verify_pop t ad dealer e p pf). Proof. unfold verify_pop, pop_base. halt. Qed.
Hint Resolve verify_pop_halts : halt.
Lemma m_verify_pop_halts m ad dealer : halts (m_verify_pop m ad dealer). Proof. unfold m_verify_pop. halt. Qed.
Lemma m_recipients_halts m : halts (m_recipients m). Proof. unfold m_recipients. halt. Qed.
Lemma m_verify_is_halts m t : halts (m_verify_is m t). Proof. unfold m_verify_is. halt. Qed.
Lemma m_eph_halts m : halts (m_eph m). Proof. unfold m_eph. halt. Qed.
Hint Resolve m_verify_pop_halts m_recipients_halts m_verify_is_halts m_eph_halts : halt.
Lemma m_check_validity_halts m e ad dealer : halts (m_check_validity m e ad dealer). Proof. unfold m_check_validity. halt. Qed.
Lemma mega_hash_halts t dealer recipient ad pk eph ss : halts (mega_hash t dealer recipient ad pk eph ss).
Proof. unfold mega_hash. auto with halt nocore. Qed.
Hint Resolve m_check_validity_halts mega_hash_halts : halt.
Lemma decrypt_single_halts e ct ad dealer recipient pk ss : halts (decrypt_single_ss e ct ad dealer recipient pk ss).
Proof. unfold decrypt_single_ss. halt. Qed.
Lemma decrypt_pair_halts e ct ad dealer recipient pk ss : halts (decrypt_pair_ss e ct ad dealer recipient pk ss).
Proof. unfold decrypt_pair_ss. halt. Qed.
Hint Resolve decrypt_single_halts decrypt_pair_halts : halt.
Lemma m_decrypt_halts m ad dealer recipient sk pk : halts (m_decrypt m ad dealer recipient sk pk).
Proof. unfold m_decrypt. halt. Qed.
Hint Resolve m_decrypt_halts : halt.
Lemma decrypt_and_check_halts m c ad dealer recipient sk pk : halts (m_decrypt_and_check m c ad dealer recipient sk pk).
Proof. unfold m_decrypt_and_check. halt. Qed.
Hint Resolve decrypt_and_check_halts : halt.
Lemma publicly_verify_halts d op th dealer rc ad : halts (publicly_verify d op th dealer rc ad).
Proof. unfold publicly_verify. halt. Qed.
Lemma private_verify_halts d sk pk ad dealer recipient : halts (private_verify d sk pk ad dealer recipient).
Proof. unfold private_verify. halt. Qed.
Lemma assoc_halts ad r d pk : halts (assoc_data ad r d pk). Proof. unfold assoc_data. halt. Qed.
Hint Resolve assoc_halts : halt.
Lemma complaint_verify_halts c d dealer complainer pk ad : halts (complaint_verify c d dealer complainer pk ad).
Proof. unfold complaint_verify. halt. Qed.
Lemma go_make_halts k : halts (go_make k). Proof. unfold go_make. halt. Qed.
Lemma lagrange_halts v l : halts (lagrange_at_value v l). Proof. unfold lagrange_at_value. cbv zeta. halt. Qed.
Lemma interp_scalar_halts cs ys : halts (interpolate_scalar cs ys). Proof. unfold interpolate_scalar. halt. Qed.
Lemma interp_point_halts cs ys : halts (interpolate_point cs ys). Proof. unfold interpolate_point. halt. Qed.
Hint Resolve go_make_halts lagrange_halts interp_scalar_halts interp_point_halts : halt.
Lemma lagrange0_halts l : halts (lagrange_at_zero l). Proof. unfold lagrange_at_zero. halt. Qed.
Hint Resolve lagrange0_halts : halt.
Lemma check_lengths_halts ds th : halts (check_lengths ds th).
Proof. induction ds as [|[k d] ds IH]; cbn [check_lengths]; halt. Qed.
Lemma sum_points_halts a l : halts (sum_points a l).
Proof. revert l. induction a as [|p a IH]; intros [|b l]; cbn [sum_points]; halt. Qed.
Hint Resolve check_lengths_halts sum_points_halts : halt.
Lemma sum_dealings_halts a ds : halts (sum_dealings a ds).
Proof. revert a. induction ds as [|[k d] ds IH]; intros a; cbn [sum_dealings]; halt. Qed.
Lemma combine_interp_halts ty th ds : halts (combine_interp ty th ds). Proof. unfold combine_interp. halt. Qed.
Hint Resolve sum_dealings_halts combine_interp_halts : halt.
Lemma new_transcript_halts th ds op : halts (new_transcript th ds op). Proof. unfold new_transcript. halt. Qed.
Lemma collect_simple_halts os : halts (collect_simple os). Proof. induction os as [|[i o] os IH]; cbn [collect_simple]; halt. Qed.
Lemma collect_pedersen_halts os : halts (collect_pedersen os). Proof. induction os as [|[i o] os IH]; cbn [collect_pedersen]; halt. Qed.
Hint Resolve collect_simple_halts collect_pedersen_halts : halt.
Lemma reconstruct_halts d os i : halts (reconstruct_share d os i). Proof. unfold reconstruct_share. cbv zeta. halt. Qed.
Lemma sum_pedersen_halts os v m : halts (sum_pedersen os v m). Proof. revert v m. induction os as [|o os IH]; intros v m; cbn [sum_pedersen]; halt. Qed.
Lemma zip_simple_halts ixs os : halts (zip_simple ixs os).
Proof. revert ixs. induction os as [|o os IH]; intros [|i ixs]; cbn [zip_simple]; halt. Qed.
Lemma zip_pedersen_halts ixs os : halts (zip_pedersen ixs os).
Proof. revert ixs. induction os as [|o os IH]; intros [|i ixs]; cbn [zip_pedersen]; halt. Qed.
Hint Resolve reconstruct_halts sum_pedersen_halts zip_simple_halts zip_pedersen_halts : halt.
Lemma combine_openings_halts ixs os tc i : halts (combine_openings ixs os tc i). Proof. unfold combine_openings. halt. Qed.
Hint Resolve combine_openings_halts : halt.
Lemma from_dealings_halts ds tc ad i sk pk : halts (from_dealings ds tc ad i sk pk). Proof. unfold from_dealings. halt. Qed.
Lemma from_dealings_and_openings_halts ds pr tc ad i sk pk : halts (from_dealings_and_openings ds pr tc ad i sk pk).
Proof. unfold from_dealings_and_openings. halt. Qed.
End Halts.

(** C86 *)
(** whatever a function answers under one bound it answers under every larger
    one: results do not depend on the bound *)
Theorem C86_bound_immaterial : forall (X : Oracles) (GO : Grp) n n', (n <= n')%nat ->
  let A := with_fuel n X in let B := with_fuel n' X in
  (forall r, settles (@random_scalar A r) (@random_scalar B r)) /\
  (forall seed, settles (@gen_keypair A GO seed) (@gen_keypair B GO seed)) /\
  (forall sh seed th rc dealer ad, settles (@new_dealing A GO sh seed th rc dealer ad) (@new_dealing B GO sh seed th rc dealer ad)) /\
  (forall ds ad i sk pk seed, settles (@generate_complaints A GO ds ad i sk pk seed) (@generate_complaints B GO ds ad i sk pk seed)) /\
  (forall m pa, settles (@derive_public_key A GO m pa) (@derive_public_key B GO m pa)) /\
  (forall pa h r k p l kl xl, settles (@new_share A GO pa h r k p l kl xl) (@new_share B GO pa h r k p l kl xl)) /\
  (forall s pa h r i k p l kl xl, settles (@share_verify A GO s pa h r i k p l kl xl) (@share_verify B GO s pa h r i k p l kl xl)) /\
  (forall pa h r k p th sh, settles (@combine_sig A GO pa h r k p th sh) (@combine_sig B GO pa h r k p th sh)) /\
  (forall t pa h r k p, settles (@sig_verify A GO t pa h r k p) (@sig_verify B GO t pa h r k p)) /\
  (forall cb dealers th corrupted seed, settles (@new_sig_setup A GO cb dealers th corrupted seed) (@new_sig_setup B GO cb dealers th corrupted seed)) /\
  (forall s pa m b, settles (@generate_shares A GO s pa m b) (@generate_shares B GO s pa m b)) /\
  (forall s pa m b sh, settles (@generate_signature A GO s pa m b sh) (@generate_signature B GO s pa m b sh)) /\
  (forall s pa m b t, settles (@verify_signature A GO s pa m b t) (@verify_signature B GO s pa m b t)).
Proof.
  intros X GO n n' H A B.
  split; [intros; apply random_scalar_settles, H|].
  split; [intros; apply gen_keypair_settles, H|].
  split; [intros; apply new_dealing_settles, H|].
  split; [intros; apply generate_complaints_settles, H|].
  split; [intros; apply derive_public_key_settles, H|].
  split; [intros; apply new_share_settles, H|].
  split; [intros; apply share_verify_settles, H|].
  split; [intros; apply combine_sig_settles, H|].
  split; [intros; apply sig_verify_settles, H|].
  split; [intros; apply new_sig_setup_settles, H|].
  split; [intros; apply generate_shares_settles, H|].
  split; [intros; apply generate_signature_settles, H|].
  intros. apply verify_signature_settles, H.
Qed.

(** nothing a node does to check what others sent can run for ever *)
Theorem C86_checking_always_ends : forall (X : Oracles) (GO : Grp) (GL : GrpLaws GO),
  (forall d op th dealer rc ad, publicly_verify d op th dealer rc ad <> Diverge) /\
  (forall d sk pk ad dealer recipient, private_verify d sk pk ad dealer recipient <> Diverge) /\
  (forall d ad dealer opener sk pk, open_dealing d ad dealer opener sk pk <> Diverge) /\
  (forall c d dealer complainer pk ad, complaint_verify c d dealer complainer pk ad <> Diverge) /\
  (forall th ds op, new_transcript th ds op <> Diverge) /\
  (forall d os i, reconstruct_share d os i <> Diverge) /\
  (forall ds tc ad i sk pk, from_dealings ds tc ad i sk pk <> Diverge) /\
  (forall ds pr tc ad i sk pk, from_dealings_and_openings ds pr tc ad i sk pk <> Diverge).
Proof.
  intros X GO GL. repeat split; intros.
  - apply publicly_verify_halts.
  - apply private_verify_halts.
  - apply decrypt_and_check_halts.
  - apply complaint_verify_halts.
  - apply new_transcript_halts.
  - apply reconstruct_halts.
  - apply from_dealings_halts.
  - apply from_dealings_and_openings_halts.
Qed.

Section Keys.
Context {X : Oracles} (HX : oracles_ok X) {GO : Grp} {GL : GrpLaws GO}.
Lemma spec_valid_dec k c i : spec_valid k c i \/ ~ spec_valid k c i.
Proof.
  unfold spec_valid. destruct (Z_lt_dec (spec_L k c i) q); [|right; tauto]. destruct (g_dec (spec_child_key k c i) gzero); [right|left]; tauto.
Qed.
Lemma ckdpub_invalid n k c i : ~ spec_valid k c i -> ckdpub (S n) k c i = Diverge \/ ckdpub n k c (index_next i) <> Diverge.
Proof.
  intros V. cbn [ckdpub]. rewrite (offset_ok HX). cbn [bind]. change (mul_by_g ?x) with (smul x genG). fold (spec_L k c i). fold (spec_child_key k c i).
  rewrite (invalid_cond HX k c i V). destruct (ckdpub n k c (index_next i)); [right; discriminate..|left; reflexivity].
Qed.
End Keys.
(** drawing a scalar ends iff some exclusive or of the next blocks is below the
    order; deriving a child ends iff one of the following indices is valid *)
Theorem C86_ends_iff : forall (X : Oracles) (HX : oracles_ok X) (GO : Grp) (GL : GrpLaws GO),
  (forall r, (exists n, @random_scalar (with_fuel n X) r <> Diverge) <-> exists j, (1 <= j)%nat /\ be_val (blocks_xor r j) < q) /\
  (forall k c i, (exists n, ckdpub n k c i <> Diverge) <-> exists j, spec_valid k c (Nat.iter j index_next i)).
Proof.
  intros X HX GO GL.
  assert (HF : forall n, oracles_ok (with_fuel n X)) by (intros n; destruct HX; split; assumption).
  split.
  - intros r. split.
    + intros [n H]. destruct (C58_random_scalar (with_fuel n X) (HF n) r) as [(m & s & L & _ & _ & V & _)|[E _]]; [|contradiction].
      exists m. split; [lia|exact V].
    + intros (j & L & V). exists j. intros E. destruct (C58_random_scalar (with_fuel j X) (HF j) r) as [(m & s & _ & E' & _)|[_ N]].
      * rewrite E in E'. discriminate E'.
      * specialize (N j). cbn [rand_fuel with_fuel] in N. specialize (N (conj L (le_n _))). change (@blocks_xor (with_fuel j X) r j) with (@blocks_xor X r j) in N. lia.
  - intros k c i. split.
    + intros [n H]. revert i H. induction n as [|n IH]; intros i H; [exfalso; apply H; reflexivity|].
      destruct (spec_valid_dec k c i) as [V|V]; [exists O; exact V|]. destruct (ckdpub_invalid HX n k c i V) as [E|E]; [contradiction|].
      destruct (IH (index_next i) E) as [j V']. exists (S j). rewrite <- iter_succ_r. exact V'.
    + intros [j V]. exists (S j). destruct (proj1 (ckdpub_outcome HX (S j) k c i)) as [r ->]; [|discriminate]. exists j. split; [lia|exact V].
Qed.
(** if after every key and chain code some index at or after the wanted one is
    valid, derivation along any path ends *)
Theorem C86_paths_end : forall (X : Oracles) (HX : oracles_ok X) (GO : Grp) (GL : GrpLaws GO) pa pk,
  (forall i, In i pa -> forall k c, exists j, spec_valid k c (Nat.iter j index_next i)) ->
  exists n, @derive_tweak (with_fuel n X) GO pa pk <> Diverge.
Proof.
  intros X HX GO GL pa pk H. unfold derive_tweak. generalize (repeat 0 32) as c. generalize (@fzero q) as off. revert pk.
  induction pa as [|i pa IH]; intros k off c; [exists O; discriminate|].
  destruct (proj2 (proj2 (C86_ends_iff X HX GO GL) k c i) (H i (or_introl eq_refl) k c)) as [n1 E1].
  destruct (ckdpub n1 k c i) as [[[k' c'] o]| | |] eqn:E; [|exists n1; cbn [tweak_loop rand_fuel with_fuel]; change (@ckdpub (with_fuel n1 X)) with (@ckdpub X); rewrite E; discriminate..|contradiction].
  destruct (IH (fun i Hi => H i (or_intror Hi)) k' (fadd off o) c') as [n2 E2]. exists (max n1 n2). cbn [tweak_loop rand_fuel with_fuel].
  destruct (@ckdpub_settles X GO n1 (max n1 n2) ltac:(lia) n1 (max n1 n2) k c i ltac:(lia)) as [Q|Q]; change (@ckdpub (with_fuel n1 X)) with (@ckdpub X) in Q;
    rewrite E in Q; [discriminate Q|]. rewrite Q. cbn [bind].
  destruct (@tweak_loop_settles X GO n2 (max n1 n2) ltac:(lia) pa k' c' (fadd off o)) as [T|T]; [contradiction|]. rewrite T. exact E2.
Qed.
(** signing and its verification can hang in key derivation only *)
Theorem C86_signing_hangs_only_in_derivation : forall (X : Oracles) (GO : Grp) (GL : GrpLaws GO) pa key,
  (forall h r p, derive_rho h r pa key p = Diverge \/
     (exists l kl xl, new_share pa h r key p l kl xl = Diverge) \/
     (exists s i tl tkl txl, share_verify s pa h r i key p tl tkl txl = Diverge) \/
     (exists th sh, combine_sig pa h r key p th sh = Diverge) \/
     (exists t, sig_verify t pa h r key p = Diverge) ->
   exists kt, tr_constant_term key = Ok kt /\ derive_tweak pa kt = Diverge).
Proof.
  intros X GO GL pa key.
  assert (B : forall (A C : Type) (r : res A) (k : A -> res C), bind r k = Diverge -> r = Diverge \/ exists a, r = Ok a /\ k a = Diverge).
  { intros A C r k Q. destruct r; cbn [bind] in Q; try discriminate Q; eauto. }
  assert (EC : forall P, halts (ecdsa_conversion P)) by (intros P; unfold ecdsa_conversion; halt; apply wide_halts).
  assert (HI : forall h, halts (hash_to_integer h)) by (intros h; apply wide_halts).
  assert (TE : forall t i, halts (tr_eval t i)) by (intros t i; apply c_eval_halts).
  intros h r p.
  assert (R : derive_rho h r pa key p = Diverge -> exists kt, tr_constant_term key = Ok kt /\ derive_tweak pa kt = Diverge).
  { intros Q. unfold derive_rho in Q. apply B in Q. destruct Q as [Q|(ps & _ & Q)].
    - exfalso. unfold presig_point in Q. destruct (tr_commitment p) as [| | |c|]; try discriminate Q.
      apply B in Q. destruct Q as [Q|(ty & _ & Q)]; [exact (c_type_halts _ Q)|]. destruct (ty =? ct_simple); [|discriminate Q].
      destruct c; try discriminate Q. exact (c_const_halts _ Q).
    - apply B in Q. destruct Q as [Q|(kt & E & Q)]; [exfalso; exact (c_const_halts _ Q)|]. exists kt. split; [exact E|].
      apply B in Q. destruct Q as [Q|(t & _ & Q)]; [exact Q|]. exfalso.
      apply B in Q. destruct Q as [Q|(rz & _ & Q)]; [exact (ro_scalar_halts _ Q)|]. apply B in Q. destruct Q as [Q|(x & _ & Q)]; [exact (EC _ Q)|discriminate Q]. }
  intros [Q|[(l & kl & xl & Q)|[(s & i & tl & tkl & txl & Q)|[(th & sh & Q)|(t & Q)]]]]; [exact (R Q)|..].
  - unfold new_share in Q. apply B in Q. destruct Q as [Q|(ro & _ & Q)]; [exact (R Q)|exfalso].
    apply B in Q. destruct Q as [Q|(e & _ & Q)]; [exact (HI _ Q)|].
    apply B in Q. destruct Q as [Q|(nu & _ & Q)]; [destruct xl; try discriminate Q; destruct (lambda_parts l) as [[? ?]|]; discriminate Q|].
    apply B in Q. destruct Q as [Q|(mu & _ & Q)]; [destruct kl; try discriminate Q; destruct (lambda_parts l) as [[? ?]|]; discriminate Q|discriminate Q].
  - unfold share_verify in Q. apply B in Q. destruct Q as [Q|(ro & _ & Q)]; [exact (R Q)|exfalso].
    apply B in Q. destruct Q as [Q|(e & _ & Q)]; [exact (HI _ Q)|].
    apply B in Q. destruct Q as [Q|(P1 & _ & Q)]; [exact (TE _ _ Q)|]. apply B in Q. destruct Q as [Q|(P2 & _ & Q)]; [exact (TE _ _ Q)|].
    apply B in Q. destruct Q as [Q|(P3 & _ & Q)]; [exact (TE _ _ Q)|].
    apply B in Q. destruct Q as [Q|(u & _ & Q)]; [destruct (ss_num s)|destruct (ss_den s)]; try discriminate Q; unfold guard in Q; destruct (geqb _ _); discriminate Q.
  - unfold combine_sig in Q. destruct (_ <? th); [discriminate Q|]. apply B in Q. destruct Q as [Q|(ro & _ & Q)]; [exact (R Q)|exfalso].
    apply B in Q. destruct Q as [Q|(k & _ & Q)]; [exact (go_make_halts _ Q)|]. apply B in Q. destruct Q as [Q|(cs & _ & Q)]; [exact (lagrange0_halts _ Q)|].
    apply B in Q. destruct Q as [Q|(x & _ & Q)]; [exact (interp_scalar_halts _ _ Q)|]. apply B in Q. destruct Q as [Q|(y & _ & Q)]; [exact (interp_scalar_halts _ _ Q)|discriminate Q].
  - unfold sig_verify in Q. destruct (_ || _)%bool; [discriminate Q|]. apply B in Q. destruct Q as [Q|(e & _ & Q)]; [exfalso; exact (HI _ Q)|].
    apply B in Q. destruct Q as [Q|(ro & _ & Q)]; [exact (R Q)|exfalso]. destruct (_ || _)%bool; [discriminate Q|].
    apply B in Q. destruct Q as [Q|(k & _ & Q)]; [exact (c_const_halts _ Q)|]. destruct (is_infinity _); [discriminate Q|]. unfold guard in Q. destruct (feqb _ _); discriminate Q.
Qed.
Print Assumptions C86_bound_immaterial.
Print Assumptions C86_checking_always_ends.
Print Assumptions C86_ends_iff.
Print Assumptions C86_paths_end.
Print Assumptions C86_signing_hangs_only_in_derivation.
(** the bound matters only for whether there is an answer *)
Example C86_ex : match @random_scalar (with_fuel 0 toyX) (mkrng (repeat 5 32) 3) with Diverge => true | _ => false end = true /\
  is_ok (@random_scalar (with_fuel 1 toyX) (mkrng (repeat 5 32) 3)) = true.
Proof. split; vm_compute; reflexivity. Qed.
(** test value, not code of /repo: an HMAC that repeats the last byte of the
    index, so that of two indices one is valid for every key *)
Definition lastX : Oracles := {|
  sha256 := @sha256 toyX; hmac512 := fun k m => repeat (last m 0 mod 256) 64; keystream := @keystream toyX; rand_fuel := 4 |}.
Example C86_ex_paths : oracles_ok lastX /\
  forall i, In i (new_bip32 [1; 2]) -> forall (k : @G toyG) c, exists j, @spec_valid lastX toyG k c (Nat.iter j index_next i).
Proof.
  split.
  - destruct toyX_ok as [A1 A2 A3 A4 A5]. split; cbn [sha256 hmac512 keystream lastX]; auto.
    intros k m. apply Forall_forall. intros x Hx. apply repeat_spec in Hx. subst x. unfold byte_ok. apply Z.mod_pos_bound. lia.
  - assert (SL : forall (k : @G toyG) c a, @spec_L lastX toyG k c [0; 0; 0; a] = be_val (repeat (a mod 256) 32)).
    { intros k c a. unfold spec_L. cbn [hmac512 lastX]. change [0; 0; 0; a] with ([0; 0; 0] ++ [a]). rewrite app_assoc, last_last. reflexivity. }
    assert (D : forall a b (k : @G toyG) c, (be_val (repeat (a mod 256) 32) <? q) = true -> (be_val (repeat (b mod 256) 32) <? q) = true ->
      (be_val (repeat (a mod 256) 32) mod q =? be_val (repeat (b mod 256) 32) mod q) = false ->
      @spec_valid lastX toyG k c [0; 0; 0; a] \/ @spec_valid lastX toyG k c [0; 0; 0; b]).
    { intros a b k c Ha Hb N. apply Z.ltb_lt in Ha, Hb. apply Z.eqb_neq in N. unfold spec_valid, spec_child_key. rewrite !SL.
      destruct (g_dec (gadd k (smul (of_Z q (be_val (repeat (a mod 256) 32))) genG)) gzero) as [E|E]; [right|left; split; assumption].
      split; [exact Hb|]. intros E'. rewrite <- E in E'. apply gadd_cancel_l in E'. apply mul_by_g_inj in E'. apply (f_equal fv) in E'. rewrite !fv_of_Z in E'.
      symmetry in E'. contradiction. }
    intros i [<-|[<-|[]]] k c.
    + destruct (D 1 2 k c eq_refl eq_refl eq_refl) as [V|V]; [exists 0%nat|exists 1%nat]; exact V.
    + destruct (D 2 3 k c eq_refl eq_refl eq_refl) as [V|V]; [exists 0%nat|exists 1%nat]; exact V.
Qed.
