(** Creation and verification of dealings. *)
From Coq Require Import ZArith Lia Bool String List Ring Field.
From Verif Require Import Base BaseFacts Zmod Fields ModelScalar ProofScalar ModelXmd ModelRo ProofRand
  SpecPoly ModelPoly ProofPoly ModelGroup GroupFacts SpecGroup ModelCommit ProofCommit ModelZk ProofZk ModelMega ProofMega
  ModelDealing SpecDealing.
Import ListNotations.
Open Scope Z_scope.

Section Dealing.
Context {X : Oracles} (HX : oracles_ok X) {GO : Grp} {GL : GrpLaws GO}.

Lemma random_scalars_cases n : forall r,
  (exists l r', random_scalars n r = Ok (l, r') /\ length l = n) \/ random_scalars n r = Diverge.
Proof.
  induction n as [|n IH]; intros r; cbn [random_scalars].
  - left. exists [], r. auto.
  - destruct (random_scalar_cases r) as [(s & r1 & ->)| ->]; cbn [bind]; [|auto].
    destruct (IH r1) as [(l & r2 & -> & L)| ->]; cbn [bind]; [|auto].
    left. exists (s :: l), r2. cbn [length]. auto.
Qed.
Lemma poly_random_cases n r : 0 < n ->
  (exists po r', poly_random n r = Ok (po, r') /\ length po = Z.to_nat n) \/ poly_random n r = Diverge.
Proof.
  intros H. unfold poly_random. destruct (Z.ltb_spec n 0); [lia|]. apply random_scalars_cases.
Qed.
Lemma poly_random_with_constant_cases c n r : 0 < n ->
  (exists po r', poly_random_with_constant c n r = Ok (po, r') /\ length po = Z.to_nat n /\ nth 0 po fzero = c) \/
  poly_random_with_constant c n r = Diverge.
Proof.
  intros H. unfold poly_random_with_constant. destruct (Z.eqb_spec n 0); [lia|]. destruct (Z.ltb_spec n 0); [lia|].
  destruct (random_scalars_cases (Z.to_nat n - 1) r) as [(l & r' & -> & L)| ->]; cbn [bind]; [left|right; reflexivity].
  exists (c :: l), r'. cbn [length nth]. split; [reflexivity|]. split; [lia|reflexivity].
Qed.

Lemma nth_error_map_seq {A} (f : nat -> A) n i : (i < n)%nat -> nth_error (map f (seq 0 n)) i = Some (f i).
Proof.
  intros H. rewrite (nth_error_nth' _ (f i)) by (rewrite map_length, seq_length; assumption).
  rewrite nth_map_seq by assumption. reflexivity.
Qed.
Lemma eval_node po i : evaluate_at po (from_node_index i) = spec_eval po (node_x i).
Proof. rewrite evaluate_at_pev, pev_spec, node_x_eq. reflexivity. Qed.

(** a single-polynomial dealing body *)
Definition body_single (po : poly) (num : Z) (rc : list G) (d : Z) (ad : bytes) (ct : ciphertext) (cm : commitment) : Prop :=
  exists e p pf c l, ct = MSingle e p pf c /\ cm = CSimple l /\ length l = Z.to_nat num /\ commits l po /\
    length c = length rc /\ m_check_validity ct (Z.of_nat (length rc)) ad d = Ok tt /\
    forall i sk, nth_error rc i = Some (mul_by_g sk) ->
      m_decrypt ct ad d (Z.of_nat i) sk (mul_by_g sk) = Ok (OSimple (spec_eval po (node_x (Z.of_nat i)))).
Definition body_pair (po mo : poly) (num : Z) (rc : list G) (d : Z) (ad : bytes) (ct : ciphertext) (cm : commitment) : Prop :=
  exists e p pf c l, ct = MPair e p pf c /\ cm = CPedersen l /\ length l = Z.to_nat num /\ commits2 l po mo /\
    length c = length rc /\ m_check_validity ct (Z.of_nat (length rc)) ad d = Ok tt /\
    forall i sk, nth_error rc i = Some (mul_by_g sk) ->
      m_decrypt ct ad d (Z.of_nat i) sk (mul_by_g sk) =
      Ok (OPedersen (spec_eval po (node_x (Z.of_nat i))) (spec_eval mo (node_x (Z.of_nat i)))).

Lemma encrypt_and_commit_single_cases po num rc d ad seed : length po = Z.to_nat num -> 0 < num -> rc <> [] ->
  (exists ct cm, encrypt_and_commit_single po num rc d ad seed = Ok (ct, cm) /\ body_single po num rc d ad ct cm) \/
  encrypt_and_commit_single po num rc d ad seed = Diverge.
Proof.
  intros L Hn Hr. unfold encrypt_and_commit_single.
  match goal with |- context [encrypt_single _ ?l _ _ _] => set (pl := l) end.
  assert (Lp : length pl = length rc) by (unfold pl; rewrite map_length, seq_length; reflexivity).
  destruct (encrypt_single_cases HX seed pl rc d ad Lp) as [[ct E]|E].
  - intros H. rewrite H in Lp. destruct rc; [congruence|discriminate].
  - left. rewrite E. cbn [bind].
    destruct (simple_create_spec po num) as (l & -> & Ll & Hc); [apply coeffs_below_length; lia|lia|].
    cbn [bind]. exists ct, (CSimple l). split; [reflexivity|].
    pose proof (encrypt_single_spec HX _ _ _ _ _ _ E) as (_ & _ & beta & p & pf & c & Em & Lc & _).
    exists (mul_by_g beta), p, pf, c, l. split; [exact Em|]. split; [reflexivity|]. split; [exact Ll|]. split; [exact Hc|].
    split; [exact Lc|]. split; [exact (encrypt_single_valid HX _ _ _ _ _ _ E)|].
    intros i sk Hi. apply (decrypt_single_honest HX _ _ _ _ _ _ _ _ _ E Hi).
    rewrite <- eval_node. apply nth_error_lt in Hi.
    exact (nth_error_map_seq (fun i => evaluate_at po (from_node_index (Z.of_nat i))) _ _ Hi).
  - right. rewrite E. reflexivity.
Qed.
Lemma encrypt_and_commit_pair_cases po mo num rc d ad seed : length po = Z.to_nat num -> length mo = Z.to_nat num -> 0 < num -> rc <> [] ->
  (exists ct cm, encrypt_and_commit_pair po mo num rc d ad seed = Ok (ct, cm) /\ body_pair po mo num rc d ad ct cm) \/
  encrypt_and_commit_pair po mo num rc d ad seed = Diverge.
Proof.
  intros L Lm Hn Hr. unfold encrypt_and_commit_pair.
  match goal with |- context [encrypt_pair _ ?l _ _ _] => set (pl := l) end.
  assert (Lp : length pl = length rc) by (unfold pl; rewrite map_length, seq_length; reflexivity).
  destruct (encrypt_pair_cases HX seed pl rc d ad Lp) as [[ct E]|E].
  - intros H. rewrite H in Lp. destruct rc; [congruence|discriminate].
  - left. rewrite E. cbn [bind].
    destruct (pedersen_create_spec po mo num) as (l & -> & Ll & Hc); [apply coeffs_below_length; lia..|lia|].
    cbn [bind]. exists ct, (CPedersen l). split; [reflexivity|].
    pose proof (encrypt_pair_spec HX _ _ _ _ _ _ E) as (_ & _ & beta & p & pf & c & Em & Lc & _).
    exists (mul_by_g beta), p, pf, c, l. split; [exact Em|]. split; [reflexivity|]. split; [exact Ll|]. split; [exact Hc|].
    split; [exact Lc|]. split; [exact (encrypt_pair_valid HX _ _ _ _ _ _ E)|].
    intros i sk Hi. rewrite (decrypt_pair_honest HX _ _ _ _ _ _ i sk (spec_eval po (node_x (Z.of_nat i)), spec_eval mo (node_x (Z.of_nat i))) E Hi).
    + reflexivity.
    + rewrite <- !eval_node. unfold pl.
      rewrite (nth_error_map_seq (fun i => (evaluate_at po (from_node_index (Z.of_nat i)), evaluate_at mo (from_node_index (Z.of_nat i))))).
      * reflexivity.
      * apply nth_error_lt in Hi. exact Hi.
  - right. rewrite E. reflexivity.
Qed.

(** ** what NewIDkgDealingInternal returns *)
Definition dealt (sh : shares) (num : Z) (rc : list G) (d : Z) (ad : bytes) (dl : dealing) : Prop :=
  match sh with
  | SRandom => exists po mo, length po = Z.to_nat num /\ length mo = Z.to_nat num /\
      body_pair po mo num rc d ad (d_ct dl) (d_cm dl) /\ d_proof dl = PNone
  | SReshareUnmasked s => exists po, length po = Z.to_nat num /\ nth 0 po fzero = s /\
      body_single po num rc d ad (d_ct dl) (d_cm dl) /\ d_proof dl = PNone
  | SReshareMasked s m => exists po z, length po = Z.to_nat num /\ nth 0 po fzero = s /\
      body_single po num rc d ad (d_ct dl) (d_cm dl) /\ d_proof dl = PMasked z /\
      eqo_verify z (pedersen s m) (mul_by_g s) ad = Ok tt
  | STimes l r rm => exists po mo z, length po = Z.to_nat num /\ length mo = Z.to_nat num /\ nth 0 po fzero = fmul l r /\
      body_pair po mo num rc d ad (d_ct dl) (d_cm dl) /\ d_proof dl = PProduct z /\
      prod_verify z (mul_by_g l) (pedersen r rm) (pedersen (fmul l r) (nth 0 mo fzero)) ad = Ok tt
  | SOther => False
  end.

Lemma new_dealing_cases sh seed num rc d ad : sh <> SOther -> 0 < num <= Z.of_nat (length rc) ->
  (exists dl, new_dealing sh seed num rc d ad = Ok dl /\ dealt sh num rc d ad dl) \/ new_dealing sh seed num rc d ad = Diverge.
Proof.
  intros Hs Hn. unfold new_dealing.
  assert (num =? 0 = false) as -> by (apply Z.eqb_neq; lia).
  assert (Z.of_nat (length rc) <? num = false) as -> by (apply Z.ltb_ge; lia). cbn [orb].
  assert (Hr : rc <> []) by (destruct rc; [cbn in Hn; lia|discriminate]).
  destruct (new_seed_total HX seed poly_dst) as (s1 & -> & L1). cbn [bind].
  rewrite seed_rng_ok by assumption. cbn [bind].
  destruct (new_seed_total HX seed mega_dst) as (ms & -> & _). cbn [bind].
  generalize (mkrng s1 0). intros rn. destruct sh as [|s|s m|l r rm|]; [| | | |congruence].
  - destruct (poly_random_cases num rn) as [(po & r1 & -> & Lp)| ->]; [lia| |right; reflexivity]. cbn [bind].
    destruct (poly_random_cases num r1) as [(mo & r2 & -> & Lm)| ->]; [lia| |right; reflexivity]. cbn [bind].
    destruct (encrypt_and_commit_pair_cases po mo num rc d ad ms) as [(ct & cm & -> & B)| ->]; [assumption..|lia|assumption| |right; reflexivity].
    left. cbn [bind fst snd]. eexists. split; [reflexivity|]. exists po, mo. cbn [d_ct d_cm d_proof]. auto.
  - destruct (poly_random_with_constant_cases s num rn) as [(po & r1 & -> & Lp & C)| ->]; [lia| |right; reflexivity]. cbn [bind].
    destruct (encrypt_and_commit_single_cases po num rc d ad ms) as [(ct & cm & -> & B)| ->]; [assumption|lia|assumption| |right; reflexivity].
    left. cbn [bind fst snd]. eexists. split; [reflexivity|]. exists po. cbn [d_ct d_cm d_proof]. auto.
  - destruct (poly_random_with_constant_cases s num rn) as [(po & r1 & -> & Lp & C)| ->]; [lia| |right; reflexivity]. cbn [bind].
    destruct (encrypt_and_commit_single_cases po num rc d ad ms) as [(ct & cm & -> & B)| ->]; [assumption|lia|assumption| |right; reflexivity].
    cbn [bind fst snd]. destruct (new_seed_total HX seed eqo_dst) as (s2 & -> & L2). cbn [bind].
    destruct (eqo_create_total HX s2 s m ad L2) as [[z E]|E]; rewrite E; cbn [bind]; [left|right; reflexivity].
    eexists. split; [reflexivity|]. exists po, z. cbn [d_ct d_cm d_proof]. repeat split; auto. apply (eqo_complete _ _ _ _ _ E).
  - destruct (random_scalar_cases rn) as [(pm & r0 & ->)| ->]; [|right; reflexivity]. cbn [bind].
    destruct (poly_random_with_constant_cases (fmul l r) num r0) as [(po & r1 & -> & Lp & C)| ->]; [lia| |right; reflexivity]. cbn [bind].
    destruct (poly_random_with_constant_cases pm num r1) as [(mo & r2 & -> & Lm & Cm)| ->]; [lia| |right; reflexivity]. cbn [bind or_panic].
    destruct (encrypt_and_commit_pair_cases po mo num rc d ad ms) as [(ct & cm & -> & B)| ->]; [assumption..|lia|assumption| |right; reflexivity].
    cbn [bind fst snd]. destruct (new_seed_total HX seed prod_dst) as (s2 & -> & L2). cbn [bind].
    destruct (prod_create_total HX s2 l r rm (fmul l r) pm ad L2) as [[z E]|E]; rewrite E; cbn [bind or_panic]; [left|right; reflexivity].
    eexists. split; [reflexivity|]. exists po, mo, z. cbn [d_ct d_cm d_proof]. repeat split; auto.
    rewrite Cm. apply (prod_complete _ _ _ _ _ _ _ E).
Qed.
Lemma new_dealing_bad_threshold sh seed num rc d ad : num = 0 \/ Z.of_nat (length rc) < num -> new_dealing sh seed num rc d ad = Err.
Proof.
  intros H. unfold new_dealing. assert ((num =? 0) || (Z.of_nat (length rc) <? num) = true) as ->; [|reflexivity].
  apply orb_true_iff. destruct H as [->|H]; [left; reflexivity|right; apply Z.ltb_lt; exact H].
Qed.
Lemma new_dealing_negative sh seed num rc d ad : sh <> SOther -> num < 0 -> new_dealing sh seed num rc d ad = Panic \/ new_dealing sh seed num rc d ad = Diverge.
Proof.
  intros Hs H. unfold new_dealing.
  assert (num =? 0 = false) as E0 by (apply Z.eqb_neq; lia). rewrite E0.
  assert (Z.of_nat (length rc) <? num = false) as -> by (apply Z.ltb_ge; lia). cbn [orb].
  destruct (new_seed_total HX seed poly_dst) as (s1 & -> & L1). cbn [bind].
  rewrite seed_rng_ok by assumption. cbn [bind].
  destruct (new_seed_total HX seed mega_dst) as (ms & -> & _). cbn [bind].
  generalize (mkrng s1 0). intros rn. apply Z.ltb_lt in H.
  destruct sh as [|s|s m|l r rm|]; [| | | |congruence]; unfold poly_random, poly_random_with_constant; rewrite ?E0, ?H; auto.
  destruct (random_scalar_cases rn) as [(pm & r0 & ->)| ->]; cbn [bind]; auto.
Qed.

Lemma dealt_shape sh num rc d ad dl : dealt sh num rc d ad dl -> well_shaped sh (Z.to_nat num) (length rc) dl.
Proof.
  destruct dl as [ct cm pf], sh as [|s|s m|l r rm|]; cbn [dealt well_shaped d_ct d_cm d_proof].
  - intros (po & mo & _ & _ & (e & p & pf' & c & k & -> & -> & L & _ & Lc & _) & ->). exists k, e, p, pf', c. auto.
  - intros (po & _ & _ & (e & p & pf' & c & k & -> & -> & L & _ & Lc & _) & ->). exists k, e, p, pf', c. auto.
  - intros (po & z & _ & _ & (e & p & pf' & c & k & -> & -> & L & _ & Lc & _) & -> & _). exists k, e, p, pf', c, z. auto.
  - intros (po & mo & z & _ & _ & _ & (e & p & pf' & c & k & -> & -> & L & _ & Lc & _) & -> & _). exists k, e, p, pf', c, z. auto.
  - auto.
Qed.

(** ** public verification of honest dealings *)
Lemma points_of_check p i o : c_check_opening p i o = Ok true -> exists l, c_points p = Ok l /\ l <> [].
Proof.
  unfold c_check_opening, c_points. destruct (unwrap p) as [l|l|?|?|], o; try discriminate;
    (destruct l as [|P l]; [discriminate|]; intros _; exists (P :: l); split; [reflexivity|discriminate]).
Qed.
Lemma check_simple_inv p i v : c_check_opening p i (OSimple v) = Ok true ->
  exists l, unwrap p = CSimple l /\ l <> [] /\ eval_points l i = Ok (mul_by_g v).
Proof.
  unfold c_check_opening. destruct (unwrap p) as [l|l|?|?|]; try discriminate.
  destruct (eval_points l i) as [e| | |] eqn:E; cbn [bind]; try discriminate. intros H. injection H as H. apply geqb_iff in H. subst.
  exists l. split; [reflexivity|]. split; [destruct l; discriminate|exact E].
Qed.
Lemma check_pedersen_inv p i v m : c_check_opening p i (OPedersen v m) = Ok true ->
  exists l, unwrap p = CPedersen l /\ l <> [] /\ eval_points l i = Ok (pedersen v m).
Proof.
  unfold c_check_opening. destruct (unwrap p) as [l|l|?|?|]; try discriminate.
  destruct (eval_points l i) as [e| | |] eqn:E; cbn [bind]; try discriminate. intros H. injection H as H. apply geqb_iff in H. subst.
  exists l. split; [reflexivity|]. split; [destruct l; discriminate|exact E].
Qed.
Lemma c_eval_unwrap p l i : (unwrap p = CSimple l \/ unwrap p = CPedersen l) -> c_eval p i = eval_points l i.
Proof. unfold c_eval, c_points. intros [-> | ->]; reflexivity. Qed.
Lemma verify_is_simple p l : unwrap p = CSimple l -> l <> [] -> c_verify_is p ct_simple = Ok tt.
Proof. unfold c_verify_is, c_curve, c_points, c_type. intros -> H. destruct l; [congruence|reflexivity]. Qed.
Lemma verify_is_pedersen p l : unwrap p = CPedersen l -> l <> [] -> c_verify_is p ct_pedersen = Ok tt.
Proof. unfold c_verify_is, c_curve, c_points, c_type. intros -> H. destruct l; [congruence|reflexivity]. Qed.

Lemma publicly_verify_pre dl op num d n ad P k : c_points (d_cm dl) = Ok (P :: k) -> length (P :: k) = Z.to_nat num -> 0 < num ->
  m_check_validity (d_ct dl) n ad d = Ok tt ->
  publicly_verify dl op num d n ad =
    match op, d_proof dl with
    | TRandom, PNone =>
      do _ <- c_verify_is (d_cm dl) ct_pedersen;
      m_verify_is (d_ct dl) MTpair
    | TReshareMasked p, PMasked pf =>
      do _ <- c_verify_is (d_cm dl) ct_simple;
      do _ <- m_verify_is (d_ct dl) MTsingle;
      do e <- c_eval p d;
      eqo_verify pf e P ad
    | TReshareUnmasked p, PNone =>
      do _ <- c_verify_is (d_cm dl) ct_simple;
      do _ <- c_verify_is p ct_simple;
      do _ <- m_verify_is (d_ct dl) MTsingle;
      match p with
      | CPedersen _ => Err
      | CSimple l =>
        do e <- eval_points l d;
        guard (geqb e P)
      | _ => Ok tt
      end
    | TTimes _ _, PNone => Panic
    | TTimes l r, PProduct pf =>
      do _ <- c_verify_is (d_cm dl) ct_pedersen;
      do _ <- m_verify_is (d_ct dl) MTpair;
      do _ <- c_verify_is l ct_simple;
      do _ <- c_verify_is r ct_pedersen;
      do el <- c_eval l d;
      do er <- c_eval r d;
      prod_verify pf el er P ad
    | _, _ => Err
    end.
Proof.
  intros Hp L Hn V. unfold publicly_verify. unfold c_len. rewrite Hp. cbn [bind].
  rewrite L, Z2Nat.id, Z.eqb_refl by lia. cbn [negb]. unfold c_curve at 1. rewrite Hp. cbn [bind]. rewrite V. cbn [bind].
  unfold c_constant_term. rewrite Hp. reflexivity.
Qed.
Lemma dealt_publicly_verifies sh op num rc d ad dl : 0 < num -> dealt sh num rc d ad dl -> share_consistent sh op d ->
  publicly_verify dl op num d (Z.of_nat (length rc)) ad = Ok tt.
Proof.
  intros Hn. 
  assert (Hd : forall k : list G, length k = Z.to_nat num -> exists P k', k = P :: k') by (intros [|P k] L; [cbn in L; lia|eauto]).
  destruct dl as [ct cm pf], sh as [|s|s m|l r rm|], op as [|p|p|pl pr|]; cbn [dealt share_consistent d_ct d_cm d_proof]; try tauto.
  - intros (po & mo & _ & _ & (e & p & pf' & c & k & Ec & -> & L & _ & Lc & V & _) & ->) _.
    destruct (Hd k L) as (P & k' & ->).
    erewrite (publicly_verify_pre _ _ _ _ _ _ P k'); cbn [d_cm d_ct d_proof]; [|reflexivity|exact L|exact Hn|exact V].
    rewrite (verify_is_pedersen _ (P :: k')) by (reflexivity || discriminate). cbn [bind].
    rewrite Ec. reflexivity.
  - intros (po & _ & C & (e & p0 & pf' & c & k & Ec & -> & L & Hc & Lc & V & _) & ->) K.
    destruct (Hd k L) as (P & k' & ->).
    erewrite (publicly_verify_pre _ _ _ _ _ _ P k'); cbn [d_cm d_ct d_proof]; [|reflexivity|exact L|exact Hn|exact V].
    rewrite (verify_is_simple _ (P :: k')) by (reflexivity || discriminate).
    apply check_simple_inv in K. destruct K as (lp & U & Nl & E). cbn [bind].
    rewrite (verify_is_simple p lp U Nl). cbn [bind]. rewrite Ec. cbn [m_verify_is mtype_eqb guard bind].
    destruct p as [l0|l0|p|p|]; cbn [unwrap] in U; try discriminate; try reflexivity.
    injection U as ->. rewrite E. cbn [bind].
    pose proof (Hc 0%nat) as H0. cbn [nth] in H0. rewrite H0. rewrite C. fold (mul_by_g s). rewrite geqb_refl. reflexivity.
  - intros (po & z & _ & C & (e & p0 & pf' & c & k & Ec & -> & L & Hc & Lc & V & _) & -> & Vz) K.
    destruct (Hd k L) as (P & k' & ->).
    erewrite (publicly_verify_pre _ _ _ _ _ _ P k'); cbn [d_cm d_ct d_proof]; [|reflexivity|exact L|exact Hn|exact V].
    rewrite (verify_is_simple _ (P :: k')) by (reflexivity || discriminate).
    apply check_pedersen_inv in K. destruct K as (lp & U & Nl & E). cbn [bind].
    rewrite Ec. cbn [m_verify_is mtype_eqb guard bind]. rewrite (c_eval_unwrap p lp d (or_intror U)), E. cbn [bind].
    assert (H0 : P = mul_by_g s) by (rewrite <- C; exact (Hc 0%nat)). rewrite H0. exact Vz.
  - intros (po & mo & z & _ & _ & C & (e & p0 & pf' & c & k & Ec & -> & L & Hc & Lc & V & _) & -> & Vz) [K1 K2].
    destruct (Hd k L) as (P & k' & ->).
    erewrite (publicly_verify_pre _ _ _ _ _ _ P k'); cbn [d_cm d_ct d_proof]; [|reflexivity|exact L|exact Hn|exact V].
    rewrite (verify_is_pedersen _ (P :: k')) by (reflexivity || discriminate).
    apply check_simple_inv in K1. destruct K1 as (l1 & U1 & N1 & E1). apply check_pedersen_inv in K2. destruct K2 as (l2 & U2 & N2 & E2).
    cbn [bind]. rewrite Ec. cbn [m_verify_is mtype_eqb guard bind].
    rewrite (verify_is_simple pl l1 U1 N1), (verify_is_pedersen pr l2 U2 N2). cbn [bind].
    rewrite (c_eval_unwrap pl l1 d (or_introl U1)), (c_eval_unwrap pr l2 d (or_intror U2)), E1, E2. cbn [bind].
    assert (H0 : P = pedersen (fmul l r) (nth 0 mo fzero)) by (rewrite <- C; exact (Hc 0%nat)). rewrite H0. exact Vz.
Qed.
(** ** decryption by the receivers *)
Lemma body_single_opens po num rc d ad ct cm i sk : body_single po num rc d ad ct cm -> 0 < num -> nth_error rc i = Some (mul_by_g sk) ->
  m_decrypt_and_check ct cm ad d (Z.of_nat i) sk (mul_by_g sk) = Ok (OSimple (spec_eval po (node_x (Z.of_nat i)))).
Proof.
  intros (e & p & pf & c & l & Ec & -> & L & Hc & Lc & V & Hd) Hn Hi. unfold m_decrypt_and_check. rewrite (Hd i sk Hi). cbn [bind].
  rewrite (check_simple l po) by (try assumption; intros ->; cbn in L; lia). rewrite feqb_refl. reflexivity.
Qed.
Lemma body_pair_opens po mo num rc d ad ct cm i sk : body_pair po mo num rc d ad ct cm -> 0 < num -> nth_error rc i = Some (mul_by_g sk) ->
  m_decrypt_and_check ct cm ad d (Z.of_nat i) sk (mul_by_g sk) =
  Ok (OPedersen (spec_eval po (node_x (Z.of_nat i))) (spec_eval mo (node_x (Z.of_nat i)))).
Proof.
  intros (e & p & pf & c & l & Ec & -> & L & Hc & Lc & V & Hd) Hn Hi. unfold m_decrypt_and_check. rewrite (Hd i sk Hi). cbn [bind].
  rewrite (check_pedersen l po mo) by (try assumption; intros ->; cbn in L; lia). rewrite geqb_refl. reflexivity.
Qed.
Lemma dealt_opens sh num rc d ad dl i sk : 0 < num -> dealt sh num rc d ad dl -> nth_error rc i = Some (mul_by_g sk) ->
  exists o, m_decrypt_and_check (d_ct dl) (d_cm dl) ad d (Z.of_nat i) sk (mul_by_g sk) = Ok o /\
    c_check_opening (d_cm dl) (Z.of_nat i) o = Ok true.
Proof.
  intros Hn D Hi.
  assert (E : exists o, m_decrypt_and_check (d_ct dl) (d_cm dl) ad d (Z.of_nat i) sk (mul_by_g sk) = Ok o).
  { destruct sh as [|s|s m|l r rm|]; cbn [dealt] in D.
    - destruct D as (po & mo & _ & _ & B & _). eexists. apply (body_pair_opens _ _ _ _ _ _ _ _ _ _ B Hn Hi).
    - destruct D as (po & _ & _ & B & _). eexists. apply (body_single_opens _ _ _ _ _ _ _ _ _ B Hn Hi).
    - destruct D as (po & z & _ & _ & B & _). eexists. apply (body_single_opens _ _ _ _ _ _ _ _ _ B Hn Hi).
    - destruct D as (po & mo & z & _ & _ & _ & B & _). eexists. apply (body_pair_opens _ _ _ _ _ _ _ _ _ _ B Hn Hi).
    - contradiction. }
  destruct E as [o E]. exists o. split; [exact E|]. unfold m_decrypt_and_check in E.
  destruct (m_decrypt _ _ _ _ _ _) as [o'| | |]; cbn [bind] in E; try discriminate.
  destruct (c_check_opening (d_cm dl) (Z.of_nat i) o') as [[|]| | |] eqn:K; cbn [bind] in E; try discriminate.
  injection E as ->. exact K.
Qed.
Lemma dealt_privately_verifies sh num rc d ad dl i sk : 0 < num -> dealt sh num rc d ad dl -> nth_error rc i = Some (mul_by_g sk) ->
  private_verify dl sk (mul_by_g sk) ad d (Z.of_nat i) = Ok tt.
Proof.
  intros Hn D Hi. destruct (dealt_opens _ _ _ _ _ _ _ _ Hn D Hi) as (o & E & K).
  unfold private_verify. destruct (points_of_check _ _ _ K) as (l & Hl & Nl). unfold c_constant_term. rewrite Hl. cbn [bind].
  destruct l as [|P l]; [congruence|]. cbn [bind]. rewrite E. reflexivity.
Qed.
End Dealing.
