(** Properties C74 and C75: uniqueness of signatures, and what the repeated use
    of a presignature gives away. *)
From Coq Require Import ZArith Lia Bool String List Ring Field.
From Verif Require Import Base BaseFacts Zmod Fields ModelScalar ProofScalar ModelXmd ModelRo SpecPoly ModelPoly ProofPoly ProofLagrange ProofSecrecy
  ModelGroup GroupFacts SpecGroup ModelCommit ProofCommit ModelDealing SpecDealing ProofTranscript ModelKey ProofKey PropKey
  ModelSign SpecSign ProofSign PropSign SpecPresig ModelSecp ProofOrder ProofSecp PropSecp Toy.
Import ListNotations.
Open Scope Z_scope.

Section Unique.
Context {X : Oracles} {GO : Grp} {GL : GrpLaws GO}.

Lemma vpoint_scale pk e r s : vpoint pk e r s = smul (finv s) (gadd (smul e genG) (smul r pk)).
Proof. unfold vpoint. gring. Qed.
Lemma finv_eq (a b : Fq) : a <> fzero -> b <> fzero -> finv a = finv b -> a = b.
Proof.
  intros Na Nb H. assert (E : a = fmul a (fmul (finv b) b)) by (rewrite (finv_l q_prime b Nb); ring).
  rewrite <- H in E. rewrite E. assert (F : fmul a (fmul (finv a) b) = fmul (fmul (finv a) a) b) by ring.
  rewrite F, (finv_l q_prime a Na). ring.
Qed.
Lemma finv_neg (a : Fq) : a <> fzero -> finv (fneg a) = fneg (finv a).
Proof.
  intros N. assert (N' : fneg a <> fzero) by (intros Q; apply N; assert (a = fneg (fneg a)) as -> by ring; rewrite Q; ring). field. auto.
Qed.
Lemma low_sign (a b : Fq) : a <> fzero -> is_high a = false -> is_high b = false -> a = b \/ a = fneg b -> a = b.
Proof.
  intros N Ha Hb [H|H]; [exact H|]. exfalso.
  assert (Nb : b <> fzero) by (intros Q; apply N; rewrite H, Q; ring).
  rewrite H, (is_high_neg b Nb), Hb in Ha. discriminate.
Qed.

Lemma unique_signature pa h rnd key presig sg sg' :
  sig_verify sg pa h rnd key presig = Ok tt -> sig_verify sg' pa h rnd key presig = Ok tt -> sg = sg'.
Proof.
  intros H H'. apply sig_verify_iff in H, H'.
  destruct H as (e & ro & K & N1 & N2 & Ee & Er & E3 & Hh & EK & N4 & E5).
  destruct H' as (e' & ro' & K' & N1' & N2' & Ee' & Er' & E3' & Hh' & EK' & N4' & E5').
  assert (e' = e) by congruence. assert (ro' = ro) by congruence. assert (K' = K) by congruence. subst e' ro' K'.
  destruct sg as [r s], sg' as [r' s']. cbn [sg_r sg_s] in *. rewrite E3 in *. rewrite E3' in *. clear E3 E3' r r'. set (r := ro_rho ro) in *. enough (Q : s = s') by (rewrite Q; reflexivity).
  rewrite <- E5' in E5. clear E5'. rewrite (vpoint_scale _ _ _ s) in E5, N4. rewrite (vpoint_scale _ _ _ s') in E5, N4'.
  set (V := gadd (smul e genG) (smul r (gadd (mul_by_g (ro_tweak ro)) K))) in *.
  assert (NV : V <> gzero) by (intros Q; apply N4; rewrite Q; apply smul_gzero).
  apply low_sign; [exact N2|exact Hh|exact Hh'|].
  destruct (affx_inj _ _ E5 N4 N4') as [Q|Q].
  - left. apply smul_inj_l in Q; [|exact NV]. apply finv_eq; assumption.
  - right. rewrite gneg_smul, <- smul_mul in Q. apply smul_inj_l in Q; [|exact NV].
    assert (Nn : fneg s' <> fzero) by (intros Q'; apply N2'; assert (s' = fneg (fneg s')) as -> by ring; rewrite Q'; ring).
    apply finv_eq; [exact N2|exact Nn|]. rewrite (finv_neg s' N2'), Q. ring.
Qed.

(** ** combining arbitrary shares *)
Definition pair_num (s : sig_share) : Fq := match ss_num s with OPedersen v _ => v | _ => fzero end.
Definition pair_den (s : sig_share) : Fq := match ss_den s with OPedersen v _ => v | _ => fzero end.

Lemma samples_short (f : sig_share -> list Fq) (shares : list (Z * sig_share)) : (forall s, (length (f s) <= 1)%nat) ->
  (length (flat_map (fun e => f (snd e)) shares) <= length shares)%nat.
Proof.
  intros Hf. induction shares as [|[j s] l IH]; [apply le_n|]. cbn [flat_map snd]. rewrite app_length. specialize (Hf s). cbn [length]. lia.
Qed.
Lemma samples_full (f : sig_share -> list Fq) (shares : list (Z * sig_share)) : (forall s, (length (f s) <= 1)%nat) ->
  length (flat_map (fun e => f (snd e)) shares) = length shares -> forall i s, In (i, s) shares -> length (f s) = 1%nat.
Proof.
  intros Hf. induction shares as [|[j s] l IH]; intros H i s' Hin; [destruct Hin|]. cbn [flat_map snd length] in H. rewrite app_length in H.
  pose proof (Hf s) as Fs. pose proof (samples_short f l Hf) as Fl.
  destruct Hin as [Hin|Hin].
  - apply pair_equal_spec in Hin. destruct Hin as [_ <-]. lia.
  - apply (IH ltac:(lia) i s' Hin).
Qed.

(** a successful combination: all shares are pairs, and the values of some
    polynomials through them at zero are divided *)
Lemma combine_inv pa h rnd key presig th shares sg : keys_ok shares ->
  combine_sig pa h rnd key presig th shares = Ok sg ->
  exists ro, derive_rho h rnd pa key presig = Ok ro /\
    (forall i s, In (i, s) shares -> exists v m w m', s = mkshare (OPedersen v m) (OPedersen w m')) /\
    forall NP DP, (length NP <= length shares)%nat -> (length DP <= length shares)%nat ->
      (forall i s, In (i, s) shares -> spec_eval NP (node_x i) = pair_num s /\ spec_eval DP (node_x i) = pair_den s) ->
      sg = mksig (ro_rho ro) (norm (fmul (spec_eval NP fzero) (finv (spec_eval DP fzero)))).
Proof.
  intros K H. pose proof H as H0. unfold combine_sig in H. destruct (Z.ltb_spec (Z.of_nat (length shares)) th) as [|Hl]; [discriminate|].
  apply bind_inv in H. destruct H as (ro & Er & H). apply bind_inv in H. destruct H as (n & Hn & H).
  unfold go_make in Hn. destruct (Z.ltb_spec th 0) as [|Hn0]; [discriminate|]. clear Hn.
  apply bind_inv in H. destruct H as (cs & Ec & H). destruct (Z.leb_spec th 0) as [|Hth]; [discriminate Ec|].
  apply bind_inv in H. destruct H as (nu & En & H). apply bind_inv in H. destruct H as (de & Ed & _).
  assert (Ne : map fst shares <> []) by (destruct shares; [cbn [length] in Hl; lia|discriminate]).
  destruct (lagrange_ok fzero (map fst shares) (proj1 K) (proj2 K) Ne) as (cs' & Ec' & Lc & _). unfold lagrange_at_zero in Ec.
  rewrite Ec in Ec'. apply Ok_inj in Ec'. subst cs'. rewrite map_length in Lc.
  unfold interpolate_scalar in En, Ed. destruct (Nat.eqb_spec (length (flat_map (fun e => num_sample (snd e)) shares)) (length cs)) as [Ln|]; [|discriminate En].
  destruct (Nat.eqb_spec (length (flat_map (fun e => den_sample (snd e)) shares)) (length cs)) as [Ld|]; [|discriminate Ed].
  rewrite Lc in Ln, Ld.
  assert (P : forall i s, In (i, s) shares -> exists v m w m', s = mkshare (OPedersen v m) (OPedersen w m')).
  { intros i s Hin.
    assert (A : length (num_sample s) = 1%nat) by (apply (samples_full num_sample shares) with (i := i); [intros [[] ?]; cbn; lia|exact Ln|exact Hin]).
    assert (B : length (den_sample s) = 1%nat) by (apply (samples_full den_sample shares) with (i := i); [intros [? []]; cbn; lia|exact Ld|exact Hin]).
    destruct s as [[] []]; cbn in A, B; try discriminate. eauto 6. }
  exists ro. split; [exact Er|]. split; [exact P|]. intros NP DP LN LD HP.
  rewrite (combine_sig_on pa h rnd key presig th shares (spec_eval NP) (spec_eval DP) ro K Hth Hl Er (isp_spec NP _ LN) (isp_spec DP _ LD)) in H0;
    [apply Ok_inj in H0; symmetry; exact H0|].
  intros i s Hin. destruct (HP i s Hin) as [E1 E2]. destruct (P i s Hin) as (v & m & w & m' & ->). exists m, m'. rewrite E1, E2. reflexivity.
Qed.

Lemma node_x_from i : node_x i = from_node_index i.
Proof. symmetry. apply node_x_eq. Qed.

Lemma shares_interp (f : sig_share -> Fq) (shares : list (Z * sig_share)) : keys_ok shares ->
  exists c, length c = length shares /\ forall i s, In (i, s) shares -> spec_eval c (node_x i) = f s.
Proof.
  intros [K1 K2]. destruct (interp_exists (map (fun e => (from_node_index (fst e), f (snd e))) shares)) as (c & Lc & Hc).
  - rewrite map_map. cbn [fst]. rewrite <- (map_map fst from_node_index). apply nodes_nodup; assumption.
  - exists c. rewrite map_length in Lc. split; [exact Lc|]. intros i s Hin. rewrite node_x_from.
    apply (Hc (from_node_index i, f s)). apply in_map_iff. exists (i, s). auto.
Qed.

(** polynomials that differ at one of the nodes only differ at zero *)
Lemma one_node_differs (shares : list (Z * sig_share)) c c' i s :
  keys_ok shares -> Forall (fun e => 0 <= fst e) shares -> In (i, s) shares ->
  (length c <= length shares)%nat -> (length c' <= length shares)%nat ->
  (forall j s', In (j, s') shares -> j <> i -> spec_eval c (node_x j) = spec_eval c' (node_x j)) ->
  spec_eval c fzero = spec_eval c' fzero -> spec_eval c (node_x i) = spec_eval c' (node_x i).
Proof.
  intros [K1 K2] Kp Hin L L' Ho Hz.
  set (others := filter (fun j => negb (j =? i)) (map fst shares)).
  assert (Lo : S (length others) = length shares).
  { unfold others. rewrite <- (map_length fst shares).
    assert (Hi : In i (map fst shares)) by (apply in_map_iff; exists (i, s); auto).
    clear - K2 Hi. induction (map fst shares) as [|j l IH]; [destruct Hi|]. inversion K2; subst. cbn [filter].
    destruct (Z.eqb_spec j i) as [->|Nj]; cbn [negb length].
    - f_equal. clear - H1. induction l as [|a l IH]; [reflexivity|]. cbn [filter]. destruct (Z.eqb_spec a i) as [->|]; [exfalso; apply H1; left; reflexivity|].
      cbn [negb length]. rewrite IH; [reflexivity|]. intros Q. apply H1. right. exact Q.
    - rewrite IH; [reflexivity|exact H2|]. destruct Hi as [Hi|Hi]; [contradiction|exact Hi]. }
  assert (Fo : Forall int64_ok others) by (apply Forall_forall; intros j Hj; apply filter_In in Hj; rewrite Forall_forall in K1; apply K1, Hj).
  assert (No : NoDup others) by (apply NoDup_filter; exact K2).
  rewrite !pev_spec. apply (agree_everywhere (fzero :: map from_node_index others)).
  - constructor; [|apply nodes_nodup; assumption]. intros Q. apply in_map_iff in Q. destruct Q as (j & Q & Hj).
    rewrite Forall_forall in Fo. pose proof (Fo j Hj) as Fj. apply (proj1 (from_node_index_zero j Fj)) in Q. unfold others in Hj. apply filter_In in Hj. destruct Hj as [Hj _].
    apply in_map_iff in Hj. destruct Hj as ([j' s'] & <- & Hj). rewrite Forall_forall in Kp. specialize (Kp _ Hj). cbn [fst] in *. lia.
  - cbn [length]. rewrite map_length. lia.
  - cbn [length]. rewrite map_length. lia.
  - intros x [<-|Hx]; [rewrite <- !pev_spec; exact Hz|]. apply in_map_iff in Hx. destruct Hx as (j & <- & Hj).
    unfold others in Hj. apply filter_In in Hj. destruct Hj as [Hj Nj]. apply in_map_iff in Hj. destruct Hj as ([j' s'] & <- & Hj). cbn [fst] in *.
    rewrite <- !pev_spec, <- node_x_from. apply (Ho j' s' Hj). intros ->. rewrite Z.eqb_refl in Nj. discriminate.
Qed.

Lemma norm_eq (a b : Fq) : norm a = norm b -> a = b \/ a = fneg b.
Proof.
  intros H. assert (I : forall x : Fq, fneg (fneg x) = x) by (intros; ring).
  destruct (norm_cases a) as [E|E], (norm_cases b) as [E'|E']; rewrite E, E' in H.
  - left. exact H.
  - right. exact H.
  - right. rewrite <- H. symmetry. apply I.
  - left. rewrite <- (I a), H. apply I.
Qed.
Lemma quot_eq (n d n' d' : Fq) : norm (fmul n (finv d)) <> fzero -> norm (fmul n (finv d)) = norm (fmul n' (finv d')) ->
  n <> fzero /\ d <> fzero /\ d' <> fzero /\ (fmul n d' = fmul n' d \/ fmul n d' = fneg (fmul n' d)).
Proof.
  intros N H.
  assert (Nz : forall a b, norm (fmul a (finv b)) <> fzero -> a <> fzero /\ b <> fzero).
  { intros a b Q. split; intros ->; apply Q.
    - assert (E : fmul fzero (finv b) = fzero) by ring. rewrite E. unfold norm. rewrite is_high_zero. reflexivity.
    - rewrite (finv_zero q eq_refl). assert (E : fmul a fzero = fzero) by ring. rewrite E. unfold norm. rewrite is_high_zero. reflexivity. }
  destruct (Nz n d N) as [Nn Nd]. assert (N' : norm (fmul n' (finv d')) <> fzero) by (rewrite <- H; exact N). destruct (Nz n' d' N') as [_ Nd'].
  split; [exact Nn|]. split; [exact Nd|]. split; [exact Nd'|]. apply norm_eq in H.
  assert (E : fmul n d' = fmul (fmul (fmul n (finv d)) d) d').
  { assert (Q : fmul (fmul (fmul n (finv d)) d) d' = fmul (fmul n (fmul (finv d) d)) d') by ring. rewrite Q, (finv_l q_prime d Nd). ring. }
  assert (E' : fmul (fmul (fmul n' (finv d')) d) d' = fmul n' d).
  { assert (Q : fmul (fmul (fmul n' (finv d')) d) d' = fmul (fmul n' (fmul (finv d') d')) d) by ring. rewrite Q, (finv_l q_prime d' Nd'). ring. }
  destruct H as [H|H]; rewrite E, H; [left; exact E'|right; rewrite <- E'; ring].
Qed.

Lemma with_num_keys i v m shares : map fst (with_num i v m shares) = map fst shares.
Proof. unfold with_num. rewrite map_map. apply map_ext. intros [j s]. cbn [fst]. destruct (Z.eqb_spec j i) as [->|]; reflexivity. Qed.
Lemma with_den_keys i v m shares : map fst (with_den i v m shares) = map fst shares.
Proof. unfold with_den. rewrite map_map. apply map_ext. intros [j s]. cbn [fst]. destruct (Z.eqb_spec j i) as [->|]; reflexivity. Qed.

Definition accepted pa h rnd key presig th (shares : list (Z * sig_share)) : Prop :=
  exists sg, combine_sig pa h rnd key presig th shares = Ok sg /\ sig_verify sg pa h rnd key presig = Ok tt.

(** two accepted combinations, in terms of interpolating polynomials *)
Lemma accepted_quot pa h rnd key presig th th' shares shares' NP DP NP' DP' :
  keys_ok shares -> keys_ok shares' ->
  accepted pa h rnd key presig th shares -> accepted pa h rnd key presig th' shares' ->
  (length NP <= length shares)%nat -> (length DP <= length shares)%nat ->
  (length NP' <= length shares')%nat -> (length DP' <= length shares')%nat ->
  (forall i s, In (i, s) shares -> spec_eval NP (node_x i) = pair_num s /\ spec_eval DP (node_x i) = pair_den s) ->
  (forall i s, In (i, s) shares' -> spec_eval NP' (node_x i) = pair_num s /\ spec_eval DP' (node_x i) = pair_den s) ->
  spec_eval NP fzero <> fzero /\ spec_eval DP fzero <> fzero /\ spec_eval DP' fzero <> fzero /\
  (fmul (spec_eval NP fzero) (spec_eval DP' fzero) = fmul (spec_eval NP' fzero) (spec_eval DP fzero) \/
   fmul (spec_eval NP fzero) (spec_eval DP' fzero) = fneg (fmul (spec_eval NP' fzero) (spec_eval DP fzero))).
Proof.
  intros K K' (sg & Ec & Ev) (sg' & Ec' & Ev') L1 L2 L3 L4 H H'.
  assert (Ns : sg_s sg <> fzero) by (apply sig_verify_iff in Ev; destruct Ev as (? & ? & ? & _ & N & _); exact N).
  pose proof (unique_signature _ _ _ _ _ _ _ Ev Ev') as Eq.
  destruct (combine_inv _ _ _ _ _ _ _ _ K Ec) as (ro & Er & _ & F). destruct (combine_inv _ _ _ _ _ _ _ _ K' Ec') as (ro' & Er' & _ & F').
  specialize (F NP DP L1 L2 H). specialize (F' NP' DP' L3 L4 H'). rewrite F, F' in Eq. rewrite F in Ns. apply (f_equal sg_s) in Eq. cbn [sg_s] in *.
  apply quot_eq; assumption.
Qed.

Lemma sign_twice (a b c : Fq) : a <> b -> a <> c -> a = b \/ a = fneg b -> a = c \/ a = fneg c -> b = c.
Proof.
  intros N1 N2 [H|H] [H'|H']; try contradiction. rewrite H in H'.
  assert (E : b = fneg (fneg b)) by ring. rewrite E, H'. ring.
Qed.
Lemma fmul_cancel_r (a b c : Fq) : c <> fzero -> fmul a c = fmul b c -> a = b.
Proof.
  intros N H. assert (E : forall x, x = fmul (fmul x c) (finv c)).
  { intros x. assert (Q : fmul (fmul x c) (finv c) = fmul x (fmul (finv c) c)) by ring. rewrite Q, (finv_l q_prime c N). ring. }
  rewrite (E a), (E b), H. reflexivity.
Qed.

(** the numerators at zero of two accepted alterations differ, but only in sign *)
Lemma altered_num pa h rnd key presig th shares i v m v' m' c c' : keys_ok shares -> Forall (fun e => 0 <= fst e) shares -> In i (map fst shares) ->
  accepted pa h rnd key presig th (with_num i v m shares) -> accepted pa h rnd key presig th (with_num i v' m' shares) -> v <> v' ->
  length c = length shares -> (forall j s, In (j, s) (with_num i v m shares) -> spec_eval c (node_x j) = pair_num s) ->
  length c' = length shares -> (forall j s, In (j, s) (with_num i v' m' shares) -> spec_eval c' (node_x j) = pair_num s) ->
  spec_eval c fzero <> spec_eval c' fzero /\ (spec_eval c fzero = spec_eval c' fzero \/ spec_eval c fzero = fneg (spec_eval c' fzero)).
Proof.
  intros K Kp Hi A A' Nv L H L' H'. apply in_map_iff in Hi. destruct Hi as ([i' s] & Ei & Hin). cbn [fst] in Ei. subst i'.
  assert (W : forall v m j s, In (j, s) shares -> In (if j =? i then (i, mkshare (OPedersen v m) (ss_den s)) else (j, s)) (with_num i v m shares)).
  { intros v0 m0 j s0 Hj. unfold with_num. apply in_map_iff. exists (j, s0). auto. }
  split.
  - intros Q. apply Nv.
    assert (E : spec_eval c (node_x i) = spec_eval c' (node_x i)).
    { apply (one_node_differs shares c c' i s K Kp Hin); try lia; [|exact Q]. intros j s' Hj Nj.
      pose proof (W v m j s' Hj) as W1. pose proof (W v' m' j s' Hj) as W2. rewrite (proj2 (Z.eqb_neq j i) Nj) in W1, W2.
      rewrite (H _ _ W1), (H' _ _ W2). reflexivity. }
    pose proof (W v m i s Hin) as W1. pose proof (W v' m' i s Hin) as W2. rewrite Z.eqb_refl in W1, W2.
    rewrite (H _ _ W1), (H' _ _ W2) in E. exact E.
  - destruct (shares_interp pair_den shares K) as (d & Ld & Hd).
    assert (Kv : forall v m, keys_ok (with_num i v m shares)) by (intros; unfold keys_ok; rewrite with_num_keys; exact K).
    assert (Lv : forall v m, length (with_num i v m shares) = length shares) by (intros; apply map_length).
    assert (Hd' : forall v m j s, In (j, s) (with_num i v m shares) -> spec_eval d (node_x j) = pair_den s).
    { intros v0 m0 j s0 Hj. unfold with_num in Hj. apply in_map_iff in Hj. destruct Hj as ([j1 s1] & E & Hj). cbn [fst snd] in E.
      rewrite <- (Hd j1 s1 Hj) || idtac. destruct (Z.eqb_spec j1 i) as [->|]; apply pair_equal_spec in E; destruct E as [<- <-]; rewrite (Hd _ _ Hj); reflexivity. }
    destruct (accepted_quot pa h rnd key presig th th _ _ c d c' d (Kv v m) (Kv v' m') A A') as (_ & N & _ & Q); rewrite ?Lv; try lia;
      [intros j s0 Hj; split; [apply H|apply (Hd' v m)]; exact Hj|intros j s0 Hj; split; [apply H'|apply (Hd' v' m')]; exact Hj|].
    destruct Q as [Q|Q]; [left|right]; apply (fmul_cancel_r _ _ _ N); [exact Q|]. rewrite Q. ring.
Qed.
Lemma altered_den pa h rnd key presig th shares i v m v' m' c c' : keys_ok shares -> Forall (fun e => 0 <= fst e) shares -> In i (map fst shares) ->
  accepted pa h rnd key presig th (with_den i v m shares) -> accepted pa h rnd key presig th (with_den i v' m' shares) -> v <> v' ->
  length c = length shares -> (forall j s, In (j, s) (with_den i v m shares) -> spec_eval c (node_x j) = pair_den s) ->
  length c' = length shares -> (forall j s, In (j, s) (with_den i v' m' shares) -> spec_eval c' (node_x j) = pair_den s) ->
  spec_eval c fzero <> spec_eval c' fzero /\ (spec_eval c fzero = spec_eval c' fzero \/ spec_eval c fzero = fneg (spec_eval c' fzero)).
Proof.
  intros K Kp Hi A A' Nv L H L' H'. apply in_map_iff in Hi. destruct Hi as ([i' s] & Ei & Hin). cbn [fst] in Ei. subst i'.
  assert (W : forall v m j s, In (j, s) shares -> In (if j =? i then (i, mkshare (ss_num s) (OPedersen v m)) else (j, s)) (with_den i v m shares)).
  { intros v0 m0 j s0 Hj. unfold with_den. apply in_map_iff. exists (j, s0). auto. }
  split.
  - intros Q. apply Nv.
    assert (E : spec_eval c (node_x i) = spec_eval c' (node_x i)).
    { apply (one_node_differs shares c c' i s K Kp Hin); try lia; [|exact Q]. intros j s' Hj Nj.
      pose proof (W v m j s' Hj) as W1. pose proof (W v' m' j s' Hj) as W2. rewrite (proj2 (Z.eqb_neq j i) Nj) in W1, W2.
      rewrite (H _ _ W1), (H' _ _ W2). reflexivity. }
    pose proof (W v m i s Hin) as W1. pose proof (W v' m' i s Hin) as W2. rewrite Z.eqb_refl in W1, W2.
    rewrite (H _ _ W1), (H' _ _ W2) in E. exact E.
  - destruct (shares_interp pair_num shares K) as (d & Ld & Hd).
    assert (Kv : forall v m, keys_ok (with_den i v m shares)) by (intros; unfold keys_ok; rewrite with_den_keys; exact K).
    assert (Lv : forall v m, length (with_den i v m shares) = length shares) by (intros; apply map_length).
    assert (Hd' : forall v m j s, In (j, s) (with_den i v m shares) -> spec_eval d (node_x j) = pair_num s).
    { intros v0 m0 j s0 Hj. unfold with_den in Hj. apply in_map_iff in Hj. destruct Hj as ([j1 s1] & E & Hj). cbn [fst snd] in E.
      destruct (Z.eqb_spec j1 i) as [->|]; apply pair_equal_spec in E; destruct E as [<- <-]; rewrite (Hd _ _ Hj); reflexivity. }
    destruct (accepted_quot pa h rnd key presig th th _ _ d c d c' (Kv v m) (Kv v' m') A A') as (N & _ & _ & Q); rewrite ?Lv; try lia;
      [intros j s0 Hj; split; [apply (Hd' v m)|apply H]; exact Hj|intros j s0 Hj; split; [apply (Hd' v' m')|apply H']; exact Hj|].
    destruct Q as [Q|Q]; [left|right]; apply (fmul_cancel_r _ _ _ N).
    + assert (E : forall x, fmul x (spec_eval d fzero) = fmul (spec_eval d fzero) x) by (intros; ring). rewrite !E. symmetry. exact Q.
    + assert (E : fmul (spec_eval c fzero) (spec_eval d fzero) = fneg (fneg (fmul (spec_eval d fzero) (spec_eval c fzero)))) by ring.
      rewrite E, <- Q. ring.
Qed.

(** ** the equation behind an accepted signature *)
Lemma signature_equation pa h rnd key presig sg x k : tr_constant_term key = Ok (smul x genG) -> presig_point presig = Ok (smul k genG) ->
  sig_verify sg pa h rnd key presig = Ok tt ->
  exists e ro, hash_to_integer h = Ok e /\ derive_rho h rnd pa key presig = Ok ro /\ sg_r sg = ro_rho ro /\ sg_r sg <> fzero /\ sg_s sg <> fzero /\
    is_high (sg_s sg) = false /\
    let V := fadd e (fmul (sg_r sg) (fadd x (ro_tweak ro))) in let n := fadd k (ro_randomizer ro) in
    fmul (sg_s sg) n = V \/ fmul (fneg (sg_s sg)) n = V.
Proof.
  intros EK EP H. apply sig_verify_iff in H. destruct H as (e & ro & K & N1 & N2 & Ee & Er & E3 & Hh & EK' & N4 & E5).
  assert (K = smul x genG) as -> by congruence. clear EK'. exists e, ro. split; [exact Ee|]. split; [exact Er|]. split; [exact E3|].
  split; [exact N1|]. split; [exact N2|]. split; [exact Hh|]. cbv zeta.
  assert (ER : ro_presig ro = smul (fadd k (ro_randomizer ro)) genG).
  { unfold derive_rho in Er. rewrite EP, bind_Ok, EK, bind_Ok in Er. apply bind_inv in Er. destruct Er as ([t ch] & _ & Er). cbn [fst] in Er.
    apply bind_inv in Er. destruct Er as (rz & _ & Er). apply bind_inv in Er. destruct Er as (rho & _ & Er). apply Ok_inj in Er. subst ro.
    cbn [ro_presig ro_randomizer]. gring. }
  rewrite ER, vpoint_scale in E5. rewrite vpoint_scale in N4. unfold mul_by_g in E5, N4.
  set (V := fadd e (fmul (sg_r sg) (fadd x (ro_tweak ro)))). set (n := fadd k (ro_randomizer ro)) in *. set (s := sg_s sg) in *. set (r := sg_r sg) in *.
  assert (EV : smul (finv s) (gadd (smul e genG) (smul r (gadd (smul (ro_tweak ro) genG) (smul x genG)))) = smul (fmul (finv s) V) genG) by (unfold V; gring).
  rewrite EV in E5, N4. clearbody V.
  assert (Sv : V = fmul s (fmul (finv s) V)).
  { assert (Q : fmul s (fmul (finv s) V) = fmul (fmul (finv s) s) V) by ring. rewrite Q, (finv_l q_prime s N2). ring. }
  destruct (g_dec (smul n genG) gzero) as [Z|NZ].
  - (* impossible: r would be zero *)
    exfalso. apply N1. rewrite E3.
    assert (Er0 : ro_rho ro = of_Z q (fv (affx (ro_presig ro)))).
    { unfold derive_rho in Er. rewrite EP, bind_Ok, EK, bind_Ok in Er. apply bind_inv in Er. destruct Er as ([t ch] & _ & Er). cbn [fst] in Er.
      apply bind_inv in Er. destruct Er as (rz & _ & Er). rewrite conversion_spec, bind_Ok in Er. apply Ok_inj in Er. subst ro. reflexivity. }
    rewrite Er0, ER, Z, affx_zero. apply fe_eq. reflexivity.
  - destruct (affx_inj _ _ E5 N4 NZ) as [Q|Q].
    + apply smul_inj_l in Q; [|apply genG_nz]. left. rewrite Sv, Q. reflexivity.
    + rewrite gneg_smul, <- smul_mul in Q. apply smul_inj_l in Q; [|apply genG_nz]. right. rewrite Sv, Q. ring.
Qed.
End Unique.

(** C74 *)
Theorem C74_at_most_one_signature :
  forall (X : Oracles) (GO : Grp) (GL : GrpLaws GO) pa h rnd key presig sg sg',
  sig_verify sg pa h rnd key presig = Ok tt -> sig_verify sg' pa h rnd key presig = Ok tt -> sg = sg'.
Proof. intros X GO GL. exact unique_signature. Qed.
(** an accepted signature, whatever shares it was combined from and however
    many, is the one the honest shares give *)
Theorem C74_bad_shares_cannot_change_the_signature :
  forall (X : Oracles) (HX : oracles_ok X) (GO : Grp) (GL : GrpLaws GO) pa h rnd key presig th shares L KL XL x kappa lambda sg',
  consistent key presig L KL XL x kappa lambda -> keys_ok shares -> 0 < th -> th <= Z.of_nat (length shares) ->
  Z.of_nat (length L) <= th -> Z.of_nat (length KL) <= th -> Z.of_nat (length XL) <= th ->
  honest_shares pa h rnd key presig L KL XL shares ->
  sig_verify sg' pa h rnd key presig = Ok tt -> lambda <> fzero -> combine_sig pa h rnd key presig th shares = Ok sg'.
Proof.
  intros X HX GO GL pa h rnd key presig th shares L KL XL x kappa lambda sg' C K H1 H2 L1 L2 L3 Hs V' Nl.
  assert (Sh : exists i s, In (i, s) shares) by (destruct shares as [|[i s] l']; [cbn [length] in H2; lia|exists i, s; left; reflexivity]).
  destruct Sh as (i & s & Hin). pose proof (Hs i s Hin) as (m1 & m2 & m3 & E0).
  destruct C as (EK & (l & EP) & EL & EKL & EXL).
  destruct (signature_equation pa h rnd key presig sg' x kappa EK ltac:(unfold presig_point; rewrite EP; reflexivity) V')
    as (e & ro & Ee & Er & E3 & N1 & N2 & Hh & Q).
  assert (Nn : fadd kappa (ro_randomizer ro) <> fzero).
  { intros Z. cbv zeta in Q. rewrite Z in Q.
    assert (QV : fadd e (fmul (sg_r sg') (fadd x (ro_tweak ro))) = fzero) by (destruct Q as [Q|Q]; rewrite <- Q; ring).
    apply sig_verify_iff in V'. destruct V' as (e' & ro' & K' & _ & _ & Ee' & Er' & _ & _ & EK' & N4 & _).
    assert (e' = e) by congruence. assert (ro' = ro) by congruence. assert (K' = smul x genG) by congruence. subst e' ro' K'.
    apply N4. rewrite vpoint_scale. unfold mul_by_g.
    assert (E : gadd (smul e genG) (smul (sg_r sg') (gadd (smul (ro_tweak ro) genG) (smul x genG))) = smul (fadd e (fmul (sg_r sg') (fadd x (ro_tweak ro)))) genG) by gring.
    rewrite E, QV, smul_zero. apply smul_gzero. }
  rewrite (combine_honest pa h rnd key presig th shares L KL XL ro e K H1 H2 ltac:(lia) ltac:(lia) ltac:(lia) Er Ee Hs).
  rewrite EL, EKL, EXL. destruct sg' as [r s']. cbn [sg_r sg_s] in *. rewrite <- E3. f_equal. f_equal.
  set (n := fadd kappa (ro_randomizer ro)) in *. cbv zeta in Q.
  assert (Es : forall s0, fmul s0 n = fadd e (fmul r (fadd x (ro_tweak ro))) ->
     fmul (fadd (fmul (fadd e (fmul r (ro_tweak ro))) lambda) (fmul r (fmul x lambda))) (finv (fadd (fmul (ro_randomizer ro) lambda) (fmul kappa lambda))) = s0).
  { intros s0 Hs0. assert (A : fadd (fmul (fadd e (fmul r (ro_tweak ro))) lambda) (fmul r (fmul x lambda)) = fmul (fmul s0 n) lambda) by (rewrite Hs0; ring).
    assert (B : fadd (fmul (ro_randomizer ro) lambda) (fmul kappa lambda) = fmul n lambda) by (unfold n; ring). rewrite A, B.
    clearbody n. clear - Nn Nl. field. auto. }
  destruct Q as [Q|Q]; rewrite (Es _ Q); unfold norm.
  - rewrite Hh. reflexivity.
  - rewrite (is_high_neg s' N2), Hh. cbn [negb]. ring.
Qed.
(** one altered value: of any three numerators (or denominators) a node may
    send, at least one leads to a refused signature *)
Theorem C74_at_most_two_numerators :
  forall (X : Oracles) (GO : Grp) (GL : GrpLaws GO) pa h rnd key presig th shares i v1 m1 v2 m2 v3 m3,
  keys_ok shares -> Forall (fun e => 0 <= fst e) shares -> In i (map fst shares) ->
  v1 <> v2 -> v1 <> v3 -> v2 <> v3 ->
  ~ ((exists sg, combine_sig pa h rnd key presig th (with_num i v1 m1 shares) = Ok sg /\ sig_verify sg pa h rnd key presig = Ok tt) /\
     (exists sg, combine_sig pa h rnd key presig th (with_num i v2 m2 shares) = Ok sg /\ sig_verify sg pa h rnd key presig = Ok tt) /\
     (exists sg, combine_sig pa h rnd key presig th (with_num i v3 m3 shares) = Ok sg /\ sig_verify sg pa h rnd key presig = Ok tt)).
Proof.
  intros X GO GL pa h rnd key presig th shares i v1 m1 v2 m2 v3 m3 K Kp Hi N12 N13 N23 (A1 & A2 & A3).
  assert (C : forall v m, exists c, length c = length shares /\ forall j s, In (j, s) (with_num i v m shares) -> spec_eval c (node_x j) = pair_num s).
  { intros v m. destruct (shares_interp pair_num (with_num i v m shares)) as (c & Lc & Hc); [unfold keys_ok; rewrite with_num_keys; exact K|].
    exists c. split; [rewrite Lc; apply map_length|exact Hc]. }
  destruct (C v1 m1) as (c1 & L1 & I1), (C v2 m2) as (c2 & L2 & I2), (C v3 m3) as (c3 & L3 & I3).
  destruct (altered_num pa h rnd key presig th shares i v1 m1 v2 m2 c1 c2 K Kp Hi A1 A2 N12 L1 I1 L2 I2) as [D12 S12].
  destruct (altered_num pa h rnd key presig th shares i v1 m1 v3 m3 c1 c3 K Kp Hi A1 A3 N13 L1 I1 L3 I3) as [D13 S13].
  destruct (altered_num pa h rnd key presig th shares i v2 m2 v3 m3 c2 c3 K Kp Hi A2 A3 N23 L2 I2 L3 I3) as [D23 _].
  apply D23. apply (sign_twice (spec_eval c1 fzero)); assumption.
Qed.
Theorem C74_at_most_two_denominators :
  forall (X : Oracles) (GO : Grp) (GL : GrpLaws GO) pa h rnd key presig th shares i v1 m1 v2 m2 v3 m3,
  keys_ok shares -> Forall (fun e => 0 <= fst e) shares -> In i (map fst shares) ->
  v1 <> v2 -> v1 <> v3 -> v2 <> v3 ->
  ~ ((exists sg, combine_sig pa h rnd key presig th (with_den i v1 m1 shares) = Ok sg /\ sig_verify sg pa h rnd key presig = Ok tt) /\
     (exists sg, combine_sig pa h rnd key presig th (with_den i v2 m2 shares) = Ok sg /\ sig_verify sg pa h rnd key presig = Ok tt) /\
     (exists sg, combine_sig pa h rnd key presig th (with_den i v3 m3 shares) = Ok sg /\ sig_verify sg pa h rnd key presig = Ok tt)).
Proof.
  intros X GO GL pa h rnd key presig th shares i v1 m1 v2 m2 v3 m3 K Kp Hi N12 N13 N23 (A1 & A2 & A3).
  assert (C : forall v m, exists c, length c = length shares /\ forall j s, In (j, s) (with_den i v m shares) -> spec_eval c (node_x j) = pair_den s).
  { intros v m. destruct (shares_interp pair_den (with_den i v m shares)) as (c & Lc & Hc); [unfold keys_ok; rewrite with_den_keys; exact K|].
    exists c. split; [rewrite Lc; apply map_length|exact Hc]. }
  destruct (C v1 m1) as (c1 & L1 & I1), (C v2 m2) as (c2 & L2 & I2), (C v3 m3) as (c3 & L3 & I3).
  destruct (altered_den pa h rnd key presig th shares i v1 m1 v2 m2 c1 c2 K Kp Hi A1 A2 N12 L1 I1 L2 I2) as [D12 S12].
  destruct (altered_den pa h rnd key presig th shares i v1 m1 v3 m3 c1 c3 K Kp Hi A1 A3 N13 L1 I1 L3 I3) as [D13 S13].
  destruct (altered_den pa h rnd key presig th shares i v2 m2 v3 m3 c2 c3 K Kp Hi A2 A3 N23 L2 I2 L3 I3) as [D23 _].
  apply D23. apply (sign_twice (spec_eval c1 fzero)); assumption.
Qed.
(** two is exact: besides the right numerator there is one other that goes
    unnoticed, with the same signature as result *)
Theorem C74_alteration_always_noticed_refuted :
  forall (X : Oracles) (GO : Grp) (GL : GrpLaws GO) pa h rnd key presig th shares i s sg,
  keys_ok shares -> Forall (fun e => 0 <= fst e) shares -> In (i, s) shares ->
  combine_sig pa h rnd key presig th shares = Ok sg -> sig_verify sg pa h rnd key presig = Ok tt ->
  exists v v' m d, s = mkshare (OPedersen v m) d /\ v' <> v /\ combine_sig pa h rnd key presig th (with_num i v' m shares) = Ok sg.
Proof.
  intros X GO GL pa h rnd key presig th shares i s sg K Kp Hin Ec Ev.
  destruct (combine_inv _ _ _ _ _ _ _ _ K Ec) as (ro & Er & P & F). destruct (P i s Hin) as (v & m & w & m' & Es).
  destruct (shares_interp pair_num shares K) as (c & Lc & Hc). destruct (shares_interp pair_den shares K) as (d & Ld & Hd).
  assert (F' := F c d ltac:(lia) ltac:(lia) (fun j s' Hj => conj (Hc j s' Hj) (Hd j s' Hj))).
  set (others := filter (fun e => negb (fst e =? i)) shares).
  assert (No : NoDup (map from_node_index (map fst others)) /\ ~ In fzero (map from_node_index (map fst others))).
  { assert (Fo : Forall int64_ok (map fst others)).
    { apply Forall_forall. intros j Hj. apply in_map_iff in Hj. destruct Hj as (e & <- & He). apply filter_In in He. destruct K as [K1 _]. rewrite Forall_forall in K1.
      apply K1. apply in_map. apply He. }
    split.
    - apply nodes_nodup; [exact Fo|]. destruct K as [_ K2]. unfold others. clear - K2. induction shares as [|e l IH]; [constructor|].
      cbn [map] in K2. inversion K2; subst. cbn [filter]. destruct (negb _); [|apply IH; assumption]. cbn [map]. constructor; [|apply IH; assumption].
      intros Q. apply H1. apply in_map_iff in Q. destruct Q as (e' & <- & Q). apply filter_In in Q. apply in_map. apply Q.
    - intros Q. apply in_map_iff in Q. destruct Q as (j & Q & Hj). rewrite Forall_forall in Fo. apply (proj1 (from_node_index_zero j (Fo j Hj))) in Q.
      apply in_map_iff in Hj. destruct Hj as (e & <- & He). apply filter_In in He. rewrite Forall_forall in Kp. specialize (Kp e (proj1 He)). lia. }
  assert (Lo : S (length others) = length shares).
  { unfold others. destruct K as [_ K2]. clear - K2 Hin. induction shares as [|[j s'] l IH]; [destruct Hin|]. cbn [map fst] in K2. inversion K2; subst. cbn [filter fst].
    destruct (Z.eqb_spec j i) as [->|Nj]; cbn [negb length].
    - f_equal. clear - H1. induction l as [|[a b] l IH]; [reflexivity|]. cbn [filter fst]. cbn [map fst In] in H1.
      destruct (Z.eqb_spec a i) as [->|]; [exfalso; apply H1; left; reflexivity|]. cbn [negb length]. rewrite IH; [reflexivity|]. intros Q. apply H1. right. exact Q.
    - rewrite IH; [reflexivity|exact H2|]. destruct Hin as [Q|Q]; [apply pair_equal_spec in Q; destruct Q; contradiction|exact Q]. }
  destruct (interp_exists ((fzero, fneg (spec_eval c fzero)) :: map (fun e => (from_node_index (fst e), pair_num (snd e))) others)) as (c' & Lc' & Hc').
  { cbn [map fst]. rewrite map_map. cbn [fst]. rewrite <- (map_map fst from_node_index). constructor; apply No. }
  cbn [length] in Lc'. rewrite map_length in Lc'.
  assert (Z' : spec_eval c' fzero = fneg (spec_eval c fzero)) by (apply (Hc' (fzero, fneg (spec_eval c fzero))); left; reflexivity).
  assert (O' : forall j s', In (j, s') shares -> j <> i -> spec_eval c' (node_x j) = pair_num s').
  { intros j s' Hj Nj. rewrite node_x_from. apply (Hc' (from_node_index j, pair_num s')). right. apply in_map_iff. exists (j, s'). split; [reflexivity|].
    apply filter_In. split; [exact Hj|]. cbn [fst]. rewrite (proj2 (Z.eqb_neq j i) Nj). reflexivity. }
  exists v, (spec_eval c' (node_x i)), m, (OPedersen w m'). split; [exact Es|].
  assert (Ns : sg_s sg <> fzero) by (apply sig_verify_iff in Ev; destruct Ev as (? & ? & ? & _ & N & _); exact N).
  rewrite F' in Ns. cbn [sg_s] in Ns. destruct (quot_eq _ _ _ _ Ns eq_refl) as (Nn & Nd & _).
  split.
  - intros Q. assert (E : spec_eval c (node_x i) = spec_eval c' (node_x i)) by (rewrite Q, (Hc i s Hin), Es; reflexivity).
    assert (A : forall y, pev c y = pev c' y).
    { apply (agree_everywhere (map from_node_index (map fst shares))).
      - apply nodes_nodup; apply K.
      - rewrite !map_length. lia.
      - rewrite !map_length. lia.
      - intros y Hy. apply in_map_iff in Hy. destruct Hy as (j & <- & Hj). apply in_map_iff in Hj. destruct Hj as ([j' s'] & <- & Hj). cbn [fst].
        rewrite <- !pev_spec, <- node_x_from. destruct (Z.eq_dec j' i) as [->|Nj]; [exact E|]. rewrite (Hc _ _ Hj), (O' _ _ Hj Nj). reflexivity. }
    assert (Q0 : spec_eval c fzero = fneg (spec_eval c fzero)) by (rewrite <- Z', !pev_spec; apply A).
    apply Nn. assert (T : fmul (fadd fone fone) (spec_eval c fzero) = fzero).
    { assert (T : fmul (fadd fone fone) (spec_eval c fzero) = fadd (spec_eval c fzero) (spec_eval c fzero)) by ring. rewrite T. rewrite Q0 at 1. ring. }
    apply (fmul_cancel_r _ _ (fadd fone fone)); [intros Q2; apply (f_equal fv) in Q2; vm_compute in Q2; discriminate|].
    assert (T2 : fmul (spec_eval c fzero) (fadd fone fone) = fmul (fadd fone fone) (spec_eval c fzero)) by ring. rewrite T2, T. ring.
  - assert (Hth : 0 < th /\ th <= Z.of_nat (length shares)).
    { unfold combine_sig in Ec. destruct (Z.ltb_spec (Z.of_nat (length shares)) th) as [|Hl]; [discriminate|]. split; [|exact Hl].
      apply bind_inv in Ec. destruct Ec as (? & _ & Ec). apply bind_inv in Ec. destruct Ec as (? & _ & Ec). apply bind_inv in Ec. destruct Ec as (? & Q & _).
      destruct (Z.leb_spec th 0); [discriminate Q|assumption]. }
    assert (Lw : length (with_num i (spec_eval c' (node_x i)) m shares) = length shares) by apply map_length.
    rewrite (combine_sig_on pa h rnd key presig th (with_num i (spec_eval c' (node_x i)) m shares) (spec_eval c') (spec_eval d) ro);
      [|unfold keys_ok; rewrite with_num_keys; exact K|apply Hth|rewrite Lw; apply Hth|exact Er|apply isp_spec; lia|apply isp_spec; lia|].
    + rewrite F', Z'. f_equal. f_equal.
      assert (E : fmul (fneg (spec_eval c fzero)) (finv (spec_eval d fzero)) = fneg (fmul (spec_eval c fzero) (finv (spec_eval d fzero)))) by ring. rewrite E.
      set (y := fmul (spec_eval c fzero) (finv (spec_eval d fzero))) in *.
      assert (Ny : y <> fzero) by (intros Q; apply Ns; rewrite Q; unfold norm; rewrite is_high_zero; reflexivity).
      unfold norm. rewrite (is_high_neg y Ny). destruct (is_high y); cbn [negb]; [reflexivity|ring].
    + intros j s' Hj. unfold with_num in Hj. apply in_map_iff in Hj. destruct Hj as ([j1 s1] & E & Hj). cbn [fst snd] in E.
      destruct (P j1 s1 Hj) as (v1 & m1 & w1 & m1' & Es1). pose proof (Hd j1 s1 Hj) as E2.
      destruct (Z.eqb_spec j1 i) as [->|Nj]; apply pair_equal_spec in E; destruct E as [<- <-].
      * exists m, m1'. rewrite E2, Es1. reflexivity.
      * exists m1, m1'. rewrite E2, (O' _ _ Hj Nj), Es1. reflexivity.
Qed.

(** C75 *)
(** the nonce of one accepted signature gives the key *)
Theorem C75_nonce_reveals_key :
  forall (X : Oracles) (GO : Grp) (GL : GrpLaws GO) pa h rnd key presig sg x k a,
  tr_constant_term key = Ok (smul x genG) -> presig_point presig = Ok (smul k genG) ->
  sig_verify sg pa h rnd key presig = Ok tt -> sees pa h rnd key presig sg a ->
  let y s := fsub (fdiv (fsub (fmul s (fadd k (sn_delta a))) (sn_e a)) (sn_r a)) (sn_tweak a) in
  x = y (sn_s a) \/ x = y (fneg (sn_s a)).
Proof.
  intros X GO GL pa h rnd key presig sg x k a EK EP V (ro & Er & Ee & Et & Ed & E1 & E2). cbv zeta.
  destruct (signature_equation pa h rnd key presig sg x k EK EP V) as (e & ro' & Ee' & Er' & E3 & N1 & N2 & _ & Q).
  assert (ro' = ro) by congruence. assert (Ee2 : e = sn_e a) by congruence. subst ro'. rewrite <- Et, <- Ed, <- E1, <- E2, Ee2 in *. clear - N1 Q.
  destruct a as [e t d r s]; cbn in *. destruct Q as [Q|Q]; [left|right]; rewrite Q; field; exact N1.
Qed.
Lemma solve_key_spec s1 a s2 b x k : fmul s1 (sn_r b) <> fmul s2 (sn_r a) ->
  fmul s1 (fadd k (sn_delta a)) = fadd (sn_e a) (fmul (sn_r a) (fadd x (sn_tweak a))) ->
  fmul s2 (fadd k (sn_delta b)) = fadd (sn_e b) (fmul (sn_r b) (fadd x (sn_tweak b))) -> solve_key s1 a s2 b = x.
Proof.
  intros N H1 H2. unfold solve_key. destruct a as [e1 t1 d1 r1 ?], b as [e2 t2 d2 r2 ?]. cbn [sn_e sn_tweak sn_delta sn_r] in *.
  assert (C1 : fsub (fadd e1 (fmul r1 t1)) (fmul s1 d1) = fsub (fmul s1 k) (fmul r1 x)).
  { assert (E : fmul s1 k = fsub (fmul s1 (fadd k d1)) (fmul s1 d1)) by ring. rewrite E, H1. ring. }
  assert (C2 : fsub (fadd e2 (fmul r2 t2)) (fmul s2 d2) = fsub (fmul s2 k) (fmul r2 x)).
  { assert (E : fmul s2 k = fsub (fmul s2 (fadd k d2)) (fmul s2 d2)) by ring. rewrite E, H2. ring. }
  rewrite C1, C2. assert (D : fsub (fmul s1 r2) (fmul s2 r1) <> fzero) by (intros Q; apply N; apply fsub_zero; exact Q).
  clear - D. assert (E : fsub (fmul s2 (fsub (fmul s1 k) (fmul r1 x))) (fmul s1 (fsub (fmul s2 k) (fmul r2 x))) = fmul (fsub (fmul s1 r2) (fmul s2 r1)) x) by ring.
  rewrite E. field. exact D.
Qed.
(** two accepted signatures from one presignature: the attack returns the key *)
Theorem C75_presignature_reuse_reveals_key :
  forall (X : Oracles) (GO : Grp) (GL : GrpLaws GO) key presig x k pa1 h1 rnd1 sg1 a pa2 h2 rnd2 sg2 b,
  tr_constant_term key = Ok (smul x genG) -> presig_point presig = Ok (smul k genG) ->
  sig_verify sg1 pa1 h1 rnd1 key presig = Ok tt -> sees pa1 h1 rnd1 key presig sg1 a ->
  sig_verify sg2 pa2 h2 rnd2 key presig = Ok tt -> sees pa2 h2 rnd2 key presig sg2 b ->
  independent a b ->
  recover_key (smul x genG) a b = Some x.
Proof.
  intros X GO GL key presig x k pa1 h1 rnd1 sg1 a pa2 h2 rnd2 sg2 b EK EP V1 S1 V2 S2 [I1 I2].
  assert (Eq : forall pa h rnd sg c, sig_verify sg pa h rnd key presig = Ok tt -> sees pa h rnd key presig sg c ->
    fmul (sn_s c) (fadd k (sn_delta c)) = fadd (sn_e c) (fmul (sn_r c) (fadd x (sn_tweak c))) \/
    fmul (fneg (sn_s c)) (fadd k (sn_delta c)) = fadd (sn_e c) (fmul (sn_r c) (fadd x (sn_tweak c)))).
  { intros pa h rnd sg c V (ro & Er & Ee & Et & Ed & E1 & E2).
    destruct (signature_equation pa h rnd key presig sg x k EK EP V) as (e & ro' & Ee' & Er' & _ & _ & _ & _ & Q).
    assert (ro' = ro) by congruence. assert (Ee2 : e = sn_e c) by congruence. subst ro'. rewrite <- Et, <- Ed, <- E1, <- E2, Ee2 in *. exact Q. }
  assert (Hin : In x (key_candidates a b)).
  { unfold key_candidates. destruct (Eq _ _ _ _ _ V1 S1) as [Q1|Q1], (Eq _ _ _ _ _ V2 S2) as [Q2|Q2].
    - left. apply (solve_key_spec _ _ _ _ x k); assumption.
    - right; left. apply (solve_key_spec _ _ _ _ x k); try assumption. intros Q. apply I2. rewrite Q. ring.
    - right; right; left. apply (solve_key_spec _ _ _ _ x k); try assumption. intros Q. apply I2.
      assert (E : fmul (sn_s a) (sn_r b) = fneg (fmul (fneg (sn_s a)) (sn_r b))) by ring. rewrite E, Q. reflexivity.
    - right; right; right; left. apply (solve_key_spec _ _ _ _ x k); try assumption. intros Q. apply I1.
      assert (E : fmul (sn_s a) (sn_r b) = fneg (fmul (fneg (sn_s a)) (sn_r b))) by ring. rewrite E, Q. ring. }
  unfold recover_key. destruct (find _ _) as [y|] eqn:F.
  - apply find_some in F. destruct F as [_ F]. apply geqb_iff in F. f_equal. apply (smul_inj_l y x genG genG_nz F).
  - exfalso. pose proof (find_none _ _ F x Hin) as N. cbv beta in N. rewrite geqb_refl in N. discriminate.
Qed.
(** with the same r nothing else is needed than that the signatures differ *)
Theorem C75_same_r_reveals_key :
  forall (X : Oracles) (GO : Grp) (GL : GrpLaws GO) key presig x k pa1 h1 rnd1 sg1 a pa2 h2 rnd2 sg2 b,
  tr_constant_term key = Ok (smul x genG) -> presig_point presig = Ok (smul k genG) ->
  sig_verify sg1 pa1 h1 rnd1 key presig = Ok tt -> sees pa1 h1 rnd1 key presig sg1 a ->
  sig_verify sg2 pa2 h2 rnd2 key presig = Ok tt -> sees pa2 h2 rnd2 key presig sg2 b ->
  sg_r sg1 = sg_r sg2 -> sg1 <> sg2 ->
  recover_key (smul x genG) a b = Some x.
Proof.
  intros X GO GL key presig x k pa1 h1 rnd1 sg1 a pa2 h2 rnd2 sg2 b EK EP V1 S1 V2 S2 Er Ns.
  apply (C75_presignature_reuse_reveals_key X GO GL key presig x k pa1 h1 rnd1 sg1 a pa2 h2 rnd2 sg2 b); try assumption.
  destruct S1 as (? & _ & _ & _ & _ & A1 & A2), S2 as (? & _ & _ & _ & _ & B1 & B2). unfold independent. rewrite A1, A2, B1, B2, Er.
  apply sig_verify_iff in V1, V2. destruct V1 as (? & ? & ? & N1 & N2 & _ & _ & _ & Hh & _), V2 as (? & ? & ? & N1' & N2' & _ & _ & _ & Hh' & _).
  split; intros Q; apply Ns; destruct sg1 as [r s], sg2 as [r' s']; cbn [sg_r sg_s] in *; f_equal; try exact Er.
  - apply (fmul_cancel_r _ _ r' N1' Q).
  - apply low_sign; [exact N2|exact Hh|exact Hh'|]. right. apply (fmul_cancel_r _ _ r' N1'). rewrite Q. ring.
Qed.
(** on the curve itself every key and presignature point is a multiple of G *)
Theorem C75_reuse_on_secp256k1 :
  forall (X : Oracles) (HX : oracles_ok X) (key presig : @transcript secpG) K P pa1 h1 rnd1 sg1 a pa2 h2 rnd2 sg2 b,
  tr_constant_term key = Ok K -> presig_point presig = Ok P ->
  sig_verify sg1 pa1 h1 rnd1 key presig = Ok tt -> sees pa1 h1 rnd1 key presig sg1 a ->
  sig_verify sg2 pa2 h2 rnd2 key presig = Ok tt -> sees pa2 h2 rnd2 key presig sg2 b ->
  independent a b ->
  exists x, recover_key K a b = Some x /\ smul x genG = K.
Proof.
  intros X HX key presig K P pa1 h1 rnd1 sg1 a pa2 h2 rnd2 sg2 b EK EP V1 S1 V2 S2 I.
  assert (M : forall Q : G (Grp := secpG), exists s, Q = smul s genG).
  { intros Q. destruct (all_gen Q) as [j E]. exists (of_Z q j). cbn [smul genG secpG]. unfold csmul. rewrite fv_of_Z, cmul_mod. exact E. }
  destruct (M K) as [x ->], (M P) as [k ->]. exists x. split; [|reflexivity].
  apply (C75_presignature_reuse_reveals_key X secpG (secpL HX) key presig x k pa1 h1 rnd1 sg1 a pa2 h2 rnd2 sg2 b); assumption.
Qed.

(** test values, not code of /repo: the key 7 and the presignature 11 of C50
    sign the messages [1] and [2]; [ex_check] avoids the inversion *)
Definition ex_check (h : bytes) (s w : Fq) : bool :=
  match derive_rho h [] [] ex_key ex_presig, hash_to_integer h, tr_constant_term ex_key with
  | Ok ro, Ok e, Ok K =>
    let P := gadd (smul (fmul e w) genG) (smul (fmul (ro_rho ro) w) (gadd (mul_by_g (ro_tweak ro)) K)) in
    negb (feqb (ro_rho ro) fzero) && negb (feqb s fzero) && feqb (fmul w s) fone && negb (is_high s) &&
    negb (geqb P gzero) && feqb (affx P) (affx (ro_presig ro))
  | _, _, _ => false
  end.
Lemma ex_check_ok h s w : ex_check h s w = true -> exists ro e, derive_rho h [] [] ex_key ex_presig = Ok ro /\ hash_to_integer h = Ok e /\
  sig_verify (mksig (ro_rho ro) s) [] h [] ex_key ex_presig = Ok tt /\
  sees [] h [] ex_key ex_presig (mksig (ro_rho ro) s) (mkseen e (ro_tweak ro) (ro_randomizer ro) (ro_rho ro) s).
Proof.
  unfold ex_check. destruct (derive_rho _ _ _ _ _) as [ro| | |] eqn:Er; try discriminate. destruct (hash_to_integer h) as [e| | |] eqn:Ee; try discriminate.
  destruct (tr_constant_term ex_key) as [K| | |] eqn:EK; try discriminate. intros H. repeat (apply andb_prop in H; destruct H as [H ?B]).
  apply negb_true_iff in H, B3, B1, B0. apply feqb_eq in B, B2. apply feqb_neq in H, B3. apply geqb_false in B0.
  exists ro, e. split; [reflexivity|]. split; [reflexivity|]. split.
  - assert (W : finv s = w).
    { apply (fmul_cancel_r _ _ s B3). rewrite B2. apply (finv_l q_prime s B3). }
    apply sig_verify_iff. exists e, ro, K. cbn [sg_r sg_s]. unfold vpoint. rewrite W. auto 12.
  - exists ro. auto 8.
Qed.
Definition ex_s1 : Fq := of_Z q 35861323750412027723818727963975380610414550730498712306138562056957179828534.
Definition ex_w1 : Fq := of_Z q 100709241189394321714594728007265624000721521527055683265053325723277563135004.
Definition ex_s2 : Fq := of_Z q 20845426616928807303230642730777321656441906826953932518927845157381532993934.
Definition ex_w2 : Fq := of_Z q 104715563691287146070837318584688502364744063810094527197990662490250004895922.
Example C75_ex_reuse : exists sg1 a sg2 b,
  sig_verify sg1 [] [1] [] ex_key ex_presig = Ok tt /\ sees [] [1] [] ex_key ex_presig sg1 a /\
  sig_verify sg2 [] [2] [] ex_key ex_presig = Ok tt /\ sees [] [2] [] ex_key ex_presig sg2 b /\
  independent a b /\ recover_key (smul (of_Z q 7) genG) a b = Some (of_Z q 7).
Proof.
  destruct (ex_check_ok [1] ex_s1 ex_w1) as (ro & e & Er & Ee & V & S); [vm_compute; reflexivity|].
  destruct (ex_check_ok [2] ex_s2 ex_w2) as (ro' & e' & Er' & Ee' & V' & S'); [vm_compute; reflexivity|].
  eexists _, _, _, _. split; [exact V|]. split; [exact S|]. split; [exact V'|]. split; [exact S'|].
  assert (I : independent (mkseen e (ro_tweak ro) (ro_randomizer ro) (ro_rho ro) ex_s1) (mkseen e' (ro_tweak ro') (ro_randomizer ro') (ro_rho ro') ex_s2)).
  { assert (T : match derive_rho [1] [] [] ex_key ex_presig, derive_rho [2] [] [] ex_key ex_presig with
      | Ok ro, Ok ro' => negb (feqb (fmul ex_s1 (ro_rho ro')) (fmul ex_s2 (ro_rho ro))) && negb (feqb (fmul ex_s1 (ro_rho ro')) (fneg (fmul ex_s2 (ro_rho ro))))
      | _, _ => false end = true) by (vm_compute; reflexivity).
    rewrite Er, Er' in T. apply andb_prop in T. destruct T as [T1 T2]. apply negb_true_iff in T1, T2. apply feqb_neq in T1, T2.
    split; cbn [sn_s sn_r]; assumption. }
  split; [exact I|].
  apply (C75_presignature_reuse_reveals_key toyX toyG toyL ex_key ex_presig (of_Z q 7) (of_Z q 11) [] [1] [] _ _ [] [2] [] _ _ eq_refl eq_refl V S V' S' I).
Qed.
(** the same values serve C74: an accepted signature exists *)
Example C74_ex_accepted : exists sg, sig_verify sg [] [1] [] ex_key ex_presig = Ok tt.
Proof. destruct (ex_check_ok [1] ex_s1 ex_w1) as (ro & e & _ & _ & V & _); [vm_compute; reflexivity|]. eauto. Qed.

Print Assumptions C74_at_most_one_signature.
Print Assumptions C74_bad_shares_cannot_change_the_signature.
Print Assumptions C74_at_most_two_numerators.
Print Assumptions C74_at_most_two_denominators.
Print Assumptions C74_alteration_always_noticed_refuted.
Print Assumptions C75_nonce_reveals_key.
Print Assumptions C75_presignature_reuse_reveals_key.
Print Assumptions C75_same_r_reveals_key.
Print Assumptions C75_reuse_on_secp256k1.
